(** Proofs about the searches over mixtures (argmax, _argmin) and from_sklearn_gmm. *)
From Verif Require Export MixOptModel IntKL2.
#[global] Set Bullet Behavior "Strict Subproofs".
Local Open Scope R_scope.

(** The mean of a component as a list of numbers. *)
Definition mean_of (c : gauss) (x : list R) : Prop :=
  exists c' C m w, get_cov c = Ok (c', (C, m, w)) /\ length x = nr m /\ forall i, (i < nr m)%nat -> nth i x 0 = ent m i 0.
Lemma start_mean c x : mean_of c x -> start_of c = Ok x.
Proof.
  intros (c' & C & m & w & E & L & N). unfold start_of. rewrite E. cbn [bind snd fst]. f_equal.
  apply (nth_ext _ _ 0 0); rewrite map_length, seq_length; [now rewrite L|]. intros i Hi. rewrite N by exact Hi.
  rewrite (nth_indep _ 0 (ent m 0 0)) by (rewrite map_length, seq_length; exact Hi).
  rewrite (map_nth (fun i => ent m i 0)), seq_nth by exact Hi. reflexivity.
Qed.
Lemma mean_unique c x y : mean_of c x -> mean_of c y -> x = y.
Proof. intros Hx Hy. apply start_mean in Hx. apply start_mean in Hy. congruence. Qed.

(** The searches from the means, one result per component. *)
Definition searches (opt : optimiser) (f : objective) (a : gmix) (rs : list (list R * bool)) : Prop :=
  Forall2 (fun c r => exists x0, mean_of c x0 /\ opt f x0 = Ok r) (gm_comps a) rs.

Definition search_step (opt : optimiser) (f : objective) (better : val -> val -> bool) (a : gmix) :=
  fun (st : val * option (list R) * bool) c =>
           let '(best, arg, ok) := st in
           let* x0 := start_of c in
           let* r := opt f x0 in
           if (snd r : bool) then
             let* p := mix_potential a (fst r) in
             if better p best then Ok (p, Some (fst r), true) else Ok (best, arg, true)
           else Ok st.

Section Search.
Variables (opt : optimiser) (f : objective) (better : val -> val -> bool) (a : gmix) (init : val) (le : R -> R -> Prop).
Hypothesis Hb : forall p q, better (Fin p) (Fin q) = true -> le q p.
Hypothesis Hw : forall p q, better (Fin p) (Fin q) = false -> le p q.
Hypothesis Hr : forall p, le p p.
Hypothesis Ht : forall p q r, le p q -> le q r -> le p r.
Hypothesis Hi : forall p, better (Fin p) init = true.
(** What is known of the searches made so far. *)
Definition best_of (rs : list (list R * bool)) (st : val * option (list R) * bool) : Prop :=
  ((forall r, In r rs -> snd r = false) /\ st = (init, None, false)) \/
  exists x p, st = (Fin p, Some x, true) /\ In (x, true) rs /\ mix_potential a x = Ok (Fin p) /\
    forall y q, In (y, true) rs -> mix_potential a y = Ok (Fin q) -> le q p.
Lemma search_from cs rs : Forall2 (fun c r => exists x0, mean_of c x0 /\ opt f x0 = Ok r) cs rs ->
  (forall r, In r rs -> snd r = true -> exists p, mix_potential a (fst r) = Ok (Fin p)) ->
  forall rs0 st, best_of rs0 st -> exists st', foldM (search_step opt f better a) cs st = Ok st' /\ best_of (rs0 ++ rs) st'.
Proof.
  induction 1 as [|c r cs rs (x0 & M & E) F IH]; intros HP rs0 st B; [exists st; rewrite app_nil_r; now split|].
  cbn [foldM]. assert (HP' : forall r', In r' rs -> snd r' = true -> exists p, mix_potential a (fst r') = Ok (Fin p)) by (intros; apply HP; [now right|assumption]).
  destruct st as [[best arg] ok]. unfold search_step at 1. rewrite (start_mean c x0 M). cbn [bind]. rewrite E. cbn [bind].
  replace (rs0 ++ r :: rs)%list with ((rs0 ++ [r]) ++ rs)%list by now rewrite <- app_assoc.
  destruct r as [x s]. cbn [snd fst]. destruct s.
  - destruct (HP (x, true) (or_introl eq_refl) eq_refl) as (p & Ep). cbn [fst] in Ep. rewrite Ep. cbn [bind].
    destruct B as [(N & Est)|(y & q & Est & Iy & Ey & My)]; injection Est as -> -> ->.
    + rewrite Hi. cbn [bind]. apply IH; [exact HP'|]. right. exists x, p. split; [reflexivity|]. split; [apply in_or_app; right; now left|]. split; [exact Ep|].
      intros z q Hz Eq. apply in_app_or in Hz. destruct Hz as [Hz|[[= <-]|[]]]; [discriminate (N _ Hz)|]. assert (q = p) as -> by congruence. apply Hr.
    + destruct (better (Fin p) (Fin q)) eqn:Bt; cbn [bind]; (apply IH; [exact HP'|]); right.
      * exists x, p. split; [reflexivity|]. split; [apply in_or_app; right; now left|]. split; [exact Ep|].
        intros z t Hz Et. apply in_app_or in Hz. destruct Hz as [Hz|[[= <-]|[]]]; [|assert (t = p) as -> by congruence; apply Hr].
        apply Ht with q; [now apply (My z)|now apply Hb].
      * exists y, q. split; [reflexivity|]. split; [apply in_or_app; now left|]. split; [exact Ey|].
        intros z t Hz Et. apply in_app_or in Hz. destruct Hz as [Hz|[[= <-]|[]]]; [now apply (My z)|]. assert (t = p) as -> by congruence. now apply Hw.
  - cbn [bind]. apply IH; [exact HP'|]. destruct B as [(N & Est)|(y & q & Est & Iy & Ey & My)].
    + left. split; [|exact Est]. intros r' Hr'. apply in_app_or in Hr'. destruct Hr' as [Hr'|[<-|[]]]; [now apply N|reflexivity].
    + right. exists y, q. split; [exact Est|]. split; [apply in_or_app; now left|]. split; [exact Ey|].
      intros z t Hz Et. apply in_app_or in Hz. destruct Hz as [Hz|[[=]|[]]]. now apply (My z).
Qed.
Lemma search_spec rs : searches opt f a rs -> (forall r, In r rs -> snd r = true -> exists p, mix_potential a (fst r) = Ok (Fin p)) ->
  exists st, search opt f better a init = Ok st /\ best_of rs st.
Proof. intros F HP. apply (search_from _ _ F HP [] (init, None, false)). left. split; [intros r []|reflexivity]. Qed.
End Search.

(** The function minimised by argmax. *)
Definition neg_log (a : gmix) : objective := fun x => let* l := mix_log_potential a x None in Ok (vmul (Fin (-1)) l).
Lemma Rlt_b_true x y : Rlt_b x y = true -> x < y.
Proof. unfold Rlt_b. destruct (Rlt_dec x y); [auto|discriminate]. Qed.
Lemma Rlt_b_false x y : Rlt_b x y = false -> y <= x.
Proof. unfold Rlt_b. destruct (Rlt_dec x y); [discriminate|]. intros _. lra. Qed.

Lemma argmax_best opt a rs : searches opt (neg_log a) a rs -> (forall r, In r rs -> snd r = true -> exists p, mix_potential a (fst r) = Ok (Fin p)) ->
  ((forall r, In r rs -> snd r = false) -> mix_argmax opt a = Err PyException) /\
  (forall r, In r rs -> snd r = true -> exists x p, mix_argmax opt a = Ok (Some x) /\ In (x, true) rs /\ mix_potential a x = Ok (Fin p) /\
     forall y q, In (y, true) rs -> mix_potential a y = Ok (Fin q) -> q <= p).
Proof.
  intros F HP. destruct (search_spec opt (neg_log a) (fun p q => vltb q p) a NInf (fun q p => q <= p)) with (rs := rs) as (st & E & B); auto.
  - cbn. intros p q H. apply Rlt_b_true in H. lra.
  - cbn. intros p q H. now apply Rlt_b_false in H.
  - intros p. apply Rle_refl.
  - intros p q r. apply Rle_trans.
  - unfold mix_argmax. fold (neg_log a). rewrite E. cbn [bind]. destruct B as [(N & ->)|(x & p & -> & Ix & Ex & M)].
    + split; [reflexivity|]. intros r Hr Hs. rewrite (N r Hr) in Hs. discriminate.
    + split; [|intros _ _ _; exists x, p; auto]. intros N. discriminate (N _ Ix).
Qed.
Lemma argmin_best opt a rs : searches opt (mix_potential a) a rs -> (forall r, In r rs -> snd r = true -> exists p, mix_potential a (fst r) = Ok (Fin p)) ->
  ((forall r, In r rs -> snd r = false) -> mix_argmin opt a = Err PyException) /\
  (forall r, In r rs -> snd r = true -> exists x p, mix_argmin opt a = Ok (Some x) /\ In (x, true) rs /\ mix_potential a x = Ok (Fin p) /\
     forall y q, In (y, true) rs -> mix_potential a y = Ok (Fin q) -> p <= q).
Proof.
  intros F HP. destruct (search_spec opt (mix_potential a) (fun p q => vltb p q) a PInf (fun q p => p <= q)) with (rs := rs) as (st & E & B); auto.
  - cbn. intros p q H. apply Rlt_b_true in H. lra.
  - cbn. intros p q H. now apply Rlt_b_false in H.
  - intros p. apply Rle_refl.
  - intros p q r H1 H2. lra.
  - unfold mix_argmin. rewrite E. cbn [bind]. destruct B as [(N & ->)|(x & p & -> & Ix & Ex & M)].
    + split; [reflexivity|]. intros r Hr Hs. rewrite (N r Hr) in Hs. discriminate.
    + split; [|intros _ _ _; exists x, p; auto]. intros N. discriminate (N _ Ix).
Qed.

(** * The maximum up to the number of components *)
Lemma point_env (vars : list string) (x : list R) : NoDup vars -> length x = length vars -> exists e, map e vars = x.
Proof.
  intros Hd. revert x. induction Hd as [|v vars Hv Hd IH]; intros [|t x] L; try discriminate; [exists (fun _ => 0); reflexivity|].
  injection L as L. destruct (IH x L) as (e & He). exists (setv e v t). cbn [map]. unfold setv at 1. destruct (string_dec v v); [|congruence]. f_equal.
  rewrite <- He. apply map_ext_in. intros u Hu. unfold setv. destruct (string_dec u v); [congruence|reflexivity].
Qed.
Lemma gval_at_mean f x e0 e : solid f -> plain f -> mean_of f x -> map e0 (ga_vars f) = x -> gval f e <= gval f e0.
Proof.
  intros S Pl (f' & C & m & w & G & Lx & N) E0. destruct (solid_lp_cov f f' C m w S G) as (Sh & P & L). pose proof Sh as (H1 & H2 & H3 & H4).
  pose proof (L e) as Le. pose proof (L e0) as L0.
  rewrite (cov_log_potential_ok (length (ga_vars f))) in Le by (exact Sh || apply map_length || (split; [apply P|now apply posdef_det])).
  rewrite (cov_log_potential_ok (length (ga_vars f))) in L0 by (exact Sh || apply map_length || (split; [apply P|now apply posdef_det])).
  rewrite (qsum_zero (length (ga_vars f)) (minv C) (fun i => ent m i 0 - nth i (map e0 (ga_vars f)) 0)) in L0
    by (intros i Hi; rewrite E0, N by lia; ring).
  pose proof (qsum_nonneg (minv C) (length (ga_vars f)) (fun i => ent m i 0 - nth i (map e (ga_vars f)) 0) (posdef_minv C P)) as Q.
  specialize (Q H1). rewrite (lp_gval _ _ _ Le), (lp_gval _ _ _ L0). specialize (Pl e _ Le).
  destruct w; cbn in Pl |- *; try contradiction; [lra|].
  set (q := qsum _ _ _) in *. match goal with |- exp ?u <= exp ?v => assert (H : u <= v) by lra; destruct H as [H|H]; [left; now apply exp_increasing|right; now rewrite H] end.
Qed.
