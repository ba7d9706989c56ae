(** The curves and contours that are drawn. *)
From Coq Require Import Lra Lia Permutation.
From Verif Require Export PlotModel IntMarg.
From Verif Require Import FactOps FactMarg MixFacts MixEq.
Local Open Scope nat_scope.
Local Open Scope list_scope.
Local Open Scope R_scope.

(** The values of [F] at [n] equidistant points from [lo] to [hi]. *)
Definition samples (F : R -> res val) (lo hi : R) (n : nat) (xs : list R) (ys : list val) : Prop :=
  length xs = n /\ length ys = n /\ forall i, (i < n)%nat ->
    nth i xs 0 = lo + (hi - lo) * INR i / INR (n - 1) /\ F (nth i xs 0) = Ok (nth i ys NaN).
(** The values of [F] on a grid: columns along the first axis, rows along the second. *)
Definition mesh_of (F : R -> R -> res val) (xl yl : R * R) (n : nat) (xm ym : list (list R)) (zm : list (list val)) : Prop :=
  length xm = n /\ length ym = n /\ length zm = n /\ forall i j, (i < n)%nat -> (j < n)%nat ->
    nth j (nth i xm []) 0 = fst xl + (snd xl - fst xl) * INR j / INR (n - 1) /\
    nth j (nth i ym []) 0 = fst yl + (snd yl - fst yl) * INR i / INR (n - 1) /\
    F (nth j (nth i xm []) 0) (nth j (nth i ym []) 0) = Ok (nth j (nth i zm []) NaN).

Definition g_value (log : bool) (f : gauss) (x : list R) : res val :=
  if log then log_potential f x None else potential f x.

Lemma linspace_length a b n : length (linspace a b n) = n.
Proof. unfold linspace. now rewrite map_length, seq_length. Qed.
Lemma linspace_nth a b n i : (i < n)%nat -> nth i (linspace a b n) 0 = a + (b - a) * INR i / INR (n - 1).
Proof.
  intros H. unfold linspace. rewrite (nth_indep _ _ ((fun i => a + INR i * ((b - a) / INR (n - 1))) 0%nat)) by now rewrite map_length, seq_length.
  rewrite (map_nth (fun i => a + INR i * ((b - a) / INR (n - 1)))). rewrite seq_nth by exact H. cbn [Nat.add]. unfold Rdiv. ring.
Qed.
Lemma mapM_total {A B} (f : A -> res B) l : (forall x, In x l -> exists y, f x = Ok y) -> exists r, mapM f l = Ok r.
Proof.
  intros H. destruct (mapM_F2 f (fun _ _ => True) l) as (r & E & _); [|eauto]. intros x Hx. destruct (H x Hx) as (y & E). eauto.
Qed.
Lemma mapM_nth {A B} (f : A -> res B) l r dx dy : mapM f l = Ok r -> length r = length l /\ forall i, (i < length l)%nat -> f (nth i l dx) = Ok (nth i r dy).
Proof.
  intros H. apply mapM_Ok_inv in H. induction H as [|x y l r E F IH]; cbn; [split; [reflexivity|intros i Hi; inversion Hi]|].
  destruct IH as (L & IH). split; [congruence|]. intros [|i] Hi; [exact E|]. apply IH. lia.
Qed.
Lemma wf_value f log x : wf_gauss f -> length x = length (ga_vars f) -> exists v, g_value log f x = Ok v.
Proof.
  intros W L. pose proof W as (Hd & _). destruct (lp_exists f (fun v => nth (pos (ga_vars f) v) x 0) W) as (v & E).
  assert (Ex : map (fun v => nth (pos (ga_vars f) v) x 0) (ga_vars f) = x).
  { apply nth_ext with (d := 0) (d' := 0); [now rewrite map_length|]. intros i Hi. rewrite map_length in Hi.
    rewrite (nth_indep _ _ ((fun v => nth (pos (ga_vars f) v) x 0) ""%string)) by now rewrite map_length.
    rewrite (map_nth (fun v => nth (pos (ga_vars f) v) x 0)). now rewrite pos_of_nth. }
  rewrite Ex in E. unfold g_value, potential. rewrite E. destruct log; cbn [bind]; eauto.
Qed.

Lemma g_values_ok f log xs : wf_gauss f -> length (ga_vars f) = 1%nat -> exists ys, g_values f log xs = Ok ys.
Proof.
  intros W L. unfold g_values. apply mapM_total. intros x _. apply (wf_value f log [x] W). now rewrite L.
Qed.
Lemma samples_make (F : R -> res val) lo hi n ys : mapM F (linspace lo hi n) = Ok ys -> samples F lo hi n (linspace lo hi n) ys.
Proof.
  intros E. destruct (mapM_nth F _ ys 0 NaN E) as (L & H). rewrite linspace_length in *. split; [apply linspace_length|]. split; [exact L|].
  intros i Hi. split; [now apply linspace_nth|]. now apply H.
Qed.
Lemma samples_ext F G lo hi n xs ys : (forall x, F x = G x) -> samples F lo hi n xs ys -> samples G lo hi n xs ys.
Proof. intros E (A & B & C). split; [exact A|]. split; [exact B|]. intros i Hi. rewrite <- E. now apply C. Qed.
Lemma samples_ends F lo hi n xs ys : (2 <= n)%nat -> samples F lo hi n xs ys -> nth 0 xs 0 = lo /\ nth (n - 1) xs 0 = hi.
Proof.
  intros Hn (_ & _ & H). split.
  - rewrite (proj1 (H 0%nat ltac:(lia))). cbn [INR]. unfold Rdiv. ring.
  - rewrite (proj1 (H (n - 1)%nat ltac:(lia))). assert (INR (n - 1) <> 0) by (apply not_0_INR; lia). field. assumption.
Qed.

(** The covariance form of a positive definite Gaussian. *)
Lemma cov_of_solid f : solid f -> exists f' C m w, get_cov f = Ok (f', (C, m, w)) /\ same_fun f f' /\ ga_vars f' = ga_vars f /\
  shaped (length (ga_vars f)) (C, m, w) /\ posdef C.
Proof.
  intros (W & V & _ & PK & PC).
  assert (HR : regular f). { intros K h g E. split; [exact (proj1 (PK K h g E))|exact (posdef_det K (PK K h g E))]. }
  destruct (get_cov_reg f W HR V) as (f' & [[C m] w] & E & S & Vf & _ & Ec & Sh). exists f', C, m, w. split; [exact E|]. split; [exact S|]. split; [exact Vf|].
  split; [exact Sh|]. pose proof W as (_ & Hf & Hc & _). destruct (ga_cov f) as [[[C0 m0] w0]|] eqn:Ev.
  - unfold get_cov, update_covform in E. rewrite V, Ev in E. cbn [bind] in E. rewrite Ev in E. injection E as <- <- <- <-. now apply (PC C0 m0 w0).
  - destruct (ga_can f) as [[[K h] g]|] eqn:Ek; [|destruct Hf; congruence]. pose proof (PK K h g eq_refl) as P.
    assert (Ef : f = {| ga_vars := ga_vars f; ga_vac := false; ga_can := Some (K, h, g); ga_cov := None |}) by (destruct f; cbn in *; congruence).
    unfold get_cov in E. rewrite Ef, (update_covform_can (ga_vars f) K h g (Hc _ eq_refl)) in E by (pose proof (posdef_det K P); lra).
    cbn [bind ga_cov] in E. injection E as _ <- _ _. now apply posdef_minv.
Qed.
Lemma three_sigma_ok C m i n w : shaped n (C, m, w) -> posdef C -> (i < n)%nat ->
  0 < ent C i i /\ three_sigma C m i = Ok (ent m i 0 - 3 * sqrt (ent C i i), ent m i 0 + 3 * sqrt (ent C i i)).
Proof.
  intros (Hr & _) P Hi. pose proof (posdef_ent C i P ltac:(congruence)) as H. split; [exact H|]. unfold three_sigma, np_sqrt.
  unfold Rlt_b. destruct (Rlt_dec (ent C i i) 0); [lra|reflexivity].
Qed.
Lemma same_value f f' log x v : same_fun f f' -> ga_vars f = [v] -> ga_vars f' = [v] -> g_value log f' [x] = g_value log f [x].
Proof.
  intros (_ & _ & _ & H) V V'. specialize (H (fun _ => x)). rewrite V, V' in H. cbn [map] in H. unfold g_value, potential. now rewrite H.
Qed.

(** * Gaussians of one variable *)
Lemma gauss_curve f log xlim ylim v : ga_vars f = [v] -> wf_gauss f -> (xlim = None -> solid f) ->
  exists f' xs ys lo hi, g_plot f log xlim ylim = Ok (f', [Curve xs ys]) /\ same_fun f f' /\
    samples (fun x => if log then log_potential f [x] None else potential f [x]) lo hi 200 xs ys /\
    match xlim with
    | Some l => l = (lo, hi)
    | None => exists C m w, get_cov f = Ok (f', (C, m, w)) /\ 0 < ent C 0 0 /\
                lo = ent m 0 0 - 3 * sqrt (ent C 0 0) /\ hi = ent m 0 0 + 3 * sqrt (ent C 0 0)
    end.
Proof.
  intros V W S. unfold g_plot. rewrite V. cbn [length]. destruct xlim as [[lo hi]|].
  - cbn [bind fst snd]. destruct (g_values_ok f log (linspace lo hi 200) W ltac:(now rewrite V)) as (ys & E). rewrite E. cbn [bind].
    exists f, (linspace lo hi 200), ys, lo, hi. split; [reflexivity|]. split; [now apply same_fun_refl|]. split; [now apply samples_make|reflexivity].
  - destruct (cov_of_solid f (S eq_refl)) as (f' & C & m & w & E & Sf & V' & Sh & P). rewrite E. cbn [bind fst snd].
    destruct (three_sigma_ok C m 0 _ w Sh P ltac:(rewrite V; cbn; lia)) as (H0 & E3). rewrite E3. cbn [bind fst snd].
    set (lo := ent m 0 0 - 3 * sqrt (ent C 0 0)). set (hi := ent m 0 0 + 3 * sqrt (ent C 0 0)).
    destruct (g_values_ok f' log (linspace lo hi 200) (proj1 Sf) ltac:(now rewrite V', V)) as (ys & Ey). rewrite Ey. cbn [bind].
    exists f', (linspace lo hi 200), ys, lo, hi. split; [reflexivity|]. split; [exact Sf|]. split.
    + apply (samples_ext (fun x => g_value log f' [x])); [intros x; apply (same_value f f' log x v Sf V); congruence|]. now apply samples_make.
    + exists C, m, w. repeat split; try reflexivity; exact H0.
Qed.
