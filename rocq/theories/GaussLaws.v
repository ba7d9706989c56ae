(** Gaussian factors in a cluster graph: the operations and their laws. *)
From Verif Require Export GaussPsdInt.
From Verif Require NlgFacts NlgOps2.
#[global] Set Bullet Behavior "Strict Subproofs".
Local Open Scope R_scope.
Local Notation pos := GaussOps.pos.

(** The methods of gaussian.py as called by cluster_graph.py and _cluster.py: multiply
    (585-593), cancel (_factor.py:76-90, divide, 595-603), marginalize with keep=True
    (506-534), reduce (670-703), distance_from_vacuous (705-716), kl_divergence (718-760).
    Simplification: kl_divergence caches forms in the two message objects and its call of equals
    may reorder one of them; only its value is kept here. *)
Definition gauss_ops (o : oracle) : fops gauss R :=
  {| f_vars := ga_vars; f_mul := g_multiply; f_cancel := g_divide;
     f_marg := fun f vs => g_marginalize o f vs true; f_reduce := g_reduce;
     f_dist := fun f => Ok (g_distance_from_vacuous f);
     f_kl := fun p q => let* r := g_kl_divergence p q in Ok (fst (fst r)) |}.

(** Positive potentials everywhere and a symmetric positive semidefinite precision; with
    [b = true], positive definite. *)
Definition ggood (b : bool) (f : gauss) : Prop :=
  wf_gauss f /\ sym_prec f /\ (forall e, 0 < gval f e) /\ (forall x, 0 <= curv (gval f) x) /\
  (b = true -> summ (gval f) (ga_vars f)).
(** The precision is positive definite or has an entry above the tolerance of np.allclose. *)
Definition gsound (f : gauss) : Prop :=
  summ (gval f) (ga_vars f) \/ exists v x, In v (ga_vars f) /\ x v = 1 /\ (forall u, u <> v -> x u = 0) /\ 1 / 100000000 < curv (gval f) x.
Definition gready (f : gauss) : Prop := ga_vac f = false.

(** * The canonical form of a good factor *)
Lemma ggood_canon f : wf_gauss f -> sym_prec f -> (forall e, 0 < gval f e) ->
  exists f' K h g, get_can f = Ok (f', (K, h, Fin g)) /\ shaped (length (ga_vars f)) (K, h, Fin g) /\ symm K /\
    (forall e, gval f e = exp (can_form (ga_vars f) K h e + g)).
Proof.
  intros W S P. destruct (get_can_wf f W) as (f' & K & h & g & E & _ & _ & Sh & _). pose proof (get_can_symm f f' K h g W S E) as Y.
  assert (L : forall e, gval f e = pot (vadd (Fin (can_form (ga_vars f) K h e)) g)) by (intros e; unfold gval, lp; now rewrite (lp_canon f f' K h g e W E)).
  pose proof (P (fun _ => 0)) as P0. rewrite L in P0. destruct g as [|g| |]; cbn in P0; try lra.
  exists f', K, h, g. split; [exact E|]. split; [exact Sh|]. split; [exact Y|]. exact L.
Qed.
Lemma second_diff p vars K h g z x : (forall e, p e = exp (can_form vars K h e + g)) ->
  2 * ln (p z) - ln (p (fun v => z v + x v)) - ln (p (fun v => z v - x v)) = qn vars K x.
Proof.
  intros H. rewrite !H, !ln_exp, !can_form_qn, lnn_plus, lnn_minus. pose proof (qn_par vars K z x). lra.
Qed.
Lemma curv_qn p vars K h g x : (forall e, p e = exp (can_form vars K h e + g)) -> curv p x = qn vars K x.
Proof.
  intros H. rewrite <- (second_diff p vars K h g (fun _ => 0) x H). unfold curv. do 2 f_equal; [f_equal|]; rewrite !H; f_equal; f_equal;
    rewrite !can_form_qn; f_equal; try apply lnn_ext; try (f_equal; apply qn_ext); intros v _; ring.
Qed.
Lemma curv_ext (p : renv -> R) (vs : list string) x y : (forall e e', (forall v, In v vs -> e v = e' v) -> p e = p e') -> (forall v, In v vs -> x v = y v) -> curv p x = curv p y.
Proof.
  intros H E. unfold curv. rewrite (H x y E). rewrite (H (fun v => - x v) (fun v => - y v)); [reflexivity|]. intros v Hv. now rewrite E.
Qed.
Lemma gval_ext f e e' : wf_gauss f -> (forall v, In v (ga_vars f) -> e v = e' v) -> gval f e = gval f e'.
Proof. intros _ H. unfold gval, lp. now rewrite (map_ext_in e e' (ga_vars f) H). Qed.
Lemma curv_mul (p a b : renv -> R) x : (forall e, 0 < a e) -> (forall e, 0 < b e) -> (forall e, p e = a e * b e) -> curv p x = curv a x + curv b x.
Proof. intros Pa Pb H. unfold curv. rewrite !H, !ln_mult by auto. lra. Qed.
Lemma summ_ext (p : renv -> R) vs : (forall e e', (forall v, In v vs -> e v = e' v) -> p e = p e') ->
  (summ p vs <-> forall x, (exists v, In v vs /\ x v <> 0) -> 0 < curv p x).
Proof.
  intros H. split.
  - intros S x (v & Hv & Hx). rewrite (curv_ext p vs x (only vs x) H) by (intros u Hu; now rewrite only_in). apply S.
    + intros u Hu. now apply only_out.
    + exists v. now rewrite only_in.
  - intros S x Hx (v & Hv). apply S. exists v. split; [|exact Hv]. destruct (in_dec string_dec v vs) as [|N]; [assumption|]. destruct (Hv (Hx v N)).
Qed.

(** Definite blocks. *)
Lemma summ_block f f' K h g xs ys : wf_gauss f -> get_can f = Ok (f', (K, h, Fin g)) -> shaped (length (ga_vars f)) (K, h, Fin g) -> symm K ->
  (forall e, gval f e = exp (can_form (ga_vars f) K h e + g)) -> Permutation (ys ++ xs) (ga_vars f) ->
  (summ (gval f) ys <-> posdef (msel K (map (pos (ga_vars f)) ys) (map (pos (ga_vars f)) ys))).
Proof.
  intros W E Sh Y G HP. pose proof W as (Hd & _). pose proof (Permutation_NoDup (Permutation_sym HP) Hd) as Dxy. destruct (NoDup_app_elim _ _ Dxy) as (Dy & Dx & Dis).
  assert (Iy : incl ys (ga_vars f)) by (intros v Hv; apply (Permutation_in _ HP), in_or_app; now left).
  assert (Hy : symm (msel K (map (pos (ga_vars f)) ys) (map (pos (ga_vars f)) ys))) by (apply symm_sel; [exact Y|]; destruct Sh as (-> & _); now apply pos_inr).
  rewrite (posdef_qn ys); [|exact Dy|cbn; apply map_length|exact Hy]. split.
  - intros S x (v & Hv & Hx). rewrite (qn_ext ys _ x (only ys x)) by (intros u Hu; now rewrite only_in).
    rewrite <- (qn_split (ga_vars f) K xs ys (only ys x) HP Hd) by (intros u Hu; apply only_out; intros C; exact (Dis u C Hu)).
    rewrite <- (curv_qn (gval f) (ga_vars f) K h g _ G). apply S; [intros u Hu; now apply only_out|]. exists v. now rewrite only_in.
  - intros S x Hx (v & Hv). rewrite (curv_qn (gval f) (ga_vars f) K h g _ G). rewrite (qn_split (ga_vars f) K xs ys x HP Hd) by (intros u Hu; apply Hx; intros C; exact (Dis u C Hu)).
    apply S. exists v. split; [|exact Hv]. destruct (in_dec string_dec v ys) as [|N]; [assumption|]. destruct (Hv (Hx v N)).
Qed.
Lemma complement (vars ys : list string) : NoDup vars -> NoDup ys -> incl ys vars -> exists xs, Permutation (ys ++ xs) vars /\ forall v, In v xs <-> In v vars /\ ~ In v ys.
Proof.
  intros Hd Dy Iy. exists (set_diff vars ys). assert (I : forall v, In v (set_diff vars ys) <-> In v vars /\ ~ In v ys) by (intros v; apply In_set_diff).
  split; [|exact I]. apply Permutation_sym, split_perm; auto; [now apply NoDup_set_diff| |].
  - intros v. rewrite I. split; [|intros [H|[H _]]; auto]. intros H. destruct (in_dec string_dec v ys); [now left|right; now split].
  - intros v Hv C. now apply I in C.
Qed.

(** * Flags *)
Lemma psd_of f f' K h g : wf_gauss f -> get_can f = Ok (f', (K, h, Fin g)) -> shaped (length (ga_vars f)) (K, h, Fin g) ->
  (forall e, gval f e = exp (can_form (ga_vars f) K h e + g)) -> (forall x, 0 <= curv (gval f) x) -> forall w, 0 <= qsum (nr K) K w.
Proof.
  intros W E (H1 & _) G P w. rewrite H1, qsum_qn by apply W. rewrite <- (curv_qn (gval f) (ga_vars f) K h g _ G). apply P.
Qed.
Lemma allclose_false K i : (i < nr K)%nat -> (i < nc K)%nat -> 1 / 100000000 < Rabs (ent K i i) -> allclose_zero K = false.
Proof.
  intros Hi Hj H. unfold allclose_zero. apply Bool.not_true_iff_false. intros C. rewrite forallb_forall in C. specialize (C i (proj2 (in_seq _ _ _) (conj (Nat.le_0_l i) Hi))). cbn beta in C.
  rewrite forallb_forall in C. specialize (C i (proj2 (in_seq _ _ _) (conj (Nat.le_0_l i) Hj))). unfold Rle_b in C. destruct (Rle_dec _ _); [lra|discriminate].
Qed.
Definition delta (v : string) : renv := fun u => if string_dec u v then 1 else 0.
Lemma qn_delta vars K v : NoDup vars -> In v vars -> qn vars K (delta v) = named_entry K vars v v.
Proof.
  intros Hd Hv. unfold qn, delta. rewrite (Rsum_ext _ (fun u => if string_dec v u then Rsum (map (fun w => named_entry K vars u w * (if string_dec w v then 1 else 0)) vars) else 0)).
  2: { intros u _. destruct (string_dec u v) as [->|N]; destruct (string_dec v _); try congruence.
       - apply Rsum_ext. intros; ring.
       - apply Rsum_zero. intros; ring. }
  rewrite pick by assumption. rewrite (Rsum_ext _ (fun w => if string_dec v w then named_entry K vars v w else 0)); [now apply pick|].
  intros u _. destruct (string_dec u v) as [->|N]; destruct (string_dec v _); try congruence; ring.
Qed.
(** A factor fresh from the constructor that meets [gsound] is not flagged. *)
Lemma sound_unflagged f : wf_gauss f -> sym_prec f -> (forall e, 0 < gval f e) -> gsound f -> (forall K h g, ga_can f = Some (K, h, g) -> ga_vac f = prec_vacuous K) ->
  ga_can f <> None -> ga_vac f = false.
Proof.
  intros W S P So Fl Nn. destruct (ggood_canon f W S P) as (f' & K & h & g & E & Sh & Y & G).
  destruct (ga_can f) as [[[K0 h0] g0]|] eqn:Ec; [|congruence]. pose proof (get_can_some f K0 h0 g0 Ec) as E0. rewrite E0 in E. injection E as <- -> -> ->.
  rewrite (Fl K h (Fin g) eq_refl). pose proof Sh as (H1 & H2 & _). pose proof W as (Hd & _). destruct So as [So|(v & x & Hv & Hx & Hx0 & C)].
  - apply posdef_not_vacuous; [congruence|]. apply (posdef_qn (ga_vars f)); auto. intros x Hx. rewrite <- (curv_qn (gval f) (ga_vars f) K h g x G).
    apply (proj1 (summ_ext (gval f) (ga_vars f) (fun e e' He => gval_ext f e e' W He)) So x Hx).
  - unfold prec_vacuous. rewrite (allclose_false K (pos (ga_vars f) v)); [reflexivity|rewrite H1; now apply pos_nth|rewrite H2; now apply pos_nth|].
    rewrite <- (named_pos K (ga_vars f) v v Hv Hv). rewrite <- (qn_delta (ga_vars f) K v Hd Hv). rewrite <- (curv_qn (gval f) (ga_vars f) K h g _ G).
    rewrite (curv_ext (gval f) (ga_vars f) (delta v) x).
    + pose proof (Rle_abs (curv (gval f) x)). lra.
    + intros e e' He. now apply gval_ext.
    + intros u _. unfold delta. destruct (string_dec u v) as [->|N]; [now symmetry|symmetry; now apply Hx0].
Qed.
(** And conversely. *)
Lemma unflagged_sound f : ggood false f -> (forall K h g, ga_can f = Some (K, h, g) -> ga_vac f = prec_vacuous K) ->
  ga_can f <> None -> ga_vac f = false -> gsound f.
Proof.
  intros (W & S & P & Q & _) Fl Nn V. destruct (ggood_canon f W S P) as (f' & K & h & g & E & Sh & Y & G).
  destruct (ga_can f) as [[[K0 h0] g0]|] eqn:Ec; [|congruence]. pose proof (get_can_some f K0 h0 g0 Ec) as E0. rewrite E0 in E. injection E as <- -> -> ->.
  rewrite (Fl K h (Fin g) eq_refl) in V. pose proof Sh as (H1 & H2 & _). pose proof W as (Hd & _).
  pose proof (psd_of f f K h g W E0 Sh G Q) as PS. unfold prec_vacuous in V. apply Bool.andb_false_iff in V. destruct V as [V|V].
  - right. assert (D : exists i j, (i < nr K)%nat /\ (j < nr K)%nat /\ 1 / 100000000 < Rabs (ent K i j)).
    { apply Classical_Prop.NNPP. intros N. apply Bool.not_true_iff_false in V. apply V. unfold allclose_zero. apply forallb_forall. intros i Hi. apply forallb_forall. intros j Hj.
      apply in_seq in Hi. apply in_seq in Hj. unfold Rle_b. destruct (Rle_dec _ _) as [|C]; [reflexivity|]. exfalso. apply N. exists i, j. split; [lia|]. split; [lia|lra]. }
    destruct D as (i & j & Hi & Hj & C). rewrite H1 in Hi, Hj.
    set (u := nth i (ga_vars f) ""%string). set (v := nth j (ga_vars f) ""%string).
    assert (Hu : In u (ga_vars f)) by now apply nth_In. assert (Hv : In v (ga_vars f)) by now apply nth_In.
    assert (Eij : named_entry K (ga_vars f) u v = ent K i j) by now apply nth_name_entry. rewrite <- Eij in C. clear Eij.
    assert (GV : forall e e', (forall w, In w (ga_vars f) -> e w = e' w) -> gval f e = gval f e') by (intros; now apply gval_ext).
    assert (X : 1 / 100000000 < named_entry K (ga_vars f) u u \/ 1 / 100000000 < named_entry K (ga_vars f) v v).
    { destruct (string_dec u v) as [Euv|Nuv].
      { left. rewrite <- Euv in C. assert (0 <= named_entry K (ga_vars f) u u); [|rewrite Rabs_right in C; lra].
        rewrite <- (qn_delta (ga_vars f) K u Hd Hu), <- (curv_qn (gval f) (ga_vars f) K h g _ G). apply Q. }
      assert (B : forall s, (s = 1 \/ s = -1) -> 0 <= named_entry K (ga_vars f) u u + named_entry K (ga_vars f) v v + 2 * s * named_entry K (ga_vars f) u v).
      { intros s Hs. pose proof (Q (fun w => s * delta u w + delta v w)) as Q0. rewrite (curv_qn (gval f) (ga_vars f) K h g _ G) in Q0.
        rewrite qn_plus in Q0 by (auto). rewrite qn_delta in Q0 by assumption.
        assert (A : qn (ga_vars f) K (fun w => s * delta u w) = named_entry K (ga_vars f) u u).
        { rewrite <- (qn_delta (ga_vars f) K u Hd Hu). apply Rsum_ext. intros a _. apply Rsum_ext. intros b _.
          replace (s * delta u a * named_entry K (ga_vars f) a b * (s * delta u b)) with ((s * s) * (delta u a * named_entry K (ga_vars f) a b * delta u b)) by ring.
          replace (s * s) with 1 by (destruct Hs as [->| ->]; ring). ring. }
        rewrite A in Q0.
        assert (B : Rsum (map (fun w => delta v w * grad (ga_vars f) K (fun w => s * delta u w) w) (ga_vars f)) = s * named_entry K (ga_vars f) u v).
        { rewrite (Rsum_ext _ (fun w => if string_dec v w then grad (ga_vars f) K (fun w => s * delta u w) w else 0)).
          2: { intros w _. unfold delta at 1. destruct (string_dec w v) as [->|]; destruct (string_dec v _); try congruence; ring. }
          rewrite pick by assumption. unfold grad. rewrite (Rsum_ext _ (fun w => if string_dec u w then s * named_entry K (ga_vars f) v w else 0)).
          2: { intros w _. unfold delta. destruct (string_dec w u) as [->|]; destruct (string_dec u _); try congruence; ring. }
          rewrite pick by assumption. now rewrite (named_symm K (ga_vars f) u v Y H1 Hu Hv). }
        rewrite B in Q0. lra. }
      pose proof (B 1 (or_introl eq_refl)). pose proof (B (-1) (or_intror eq_refl)). unfold Rabs in C. destruct (Rcase_abs _); lra. }
    assert (Fin_ : forall w, In w (ga_vars f) -> 1 / 100000000 < named_entry K (ga_vars f) w w ->
      exists v x, In v (ga_vars f) /\ x v = 1 /\ (forall u, u <> v -> x u = 0) /\ 1 / 100000000 < curv (gval f) x).
    { intros w Hw Cw. exists w, (delta w). split; [exact Hw|]. split; [unfold delta; now destruct (string_dec w w)|].
      split; [intros t Ht; unfold delta; now destruct (string_dec t w)|]. now rewrite (curv_qn (gval f) (ga_vars f) K h g _ G), qn_delta. }
    destruct X as [X|X]; [exact (Fin_ u Hu X)|exact (Fin_ v Hv X)].
  - left. apply Bool.negb_false_iff in V. pose proof (psd_is_pos_def K ltac:(congruence) Y PS V) as PD.
    apply (proj2 (summ_ext (gval f) (ga_vars f) (fun e e' He => gval_ext f e e' W He))). intros x Hx. rewrite (curv_qn (gval f) (ga_vars f) K h g _ G).
    now apply (posdef_qn (ga_vars f) K Hd H1 Y).
Qed.
