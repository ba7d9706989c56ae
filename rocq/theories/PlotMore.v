(** Convergence plots, bars of tables and plots of nonlinear Gaussians. *)
From Coq Require Import Lra Lia Permutation Sorted.
From Verif Require Export PlotMesh ShowSpec.
From Verif Require Import FactOps FactMarg MixFacts NlgExamples NlgOps NlgMix NlgGeneral IntKL2 ShowEx.
Local Open Scope nat_scope.
Local Open Scope string_scope.
Local Open Scope list_scope.
Local Open Scope R_scope.

(** * Convergence *)
Lemma doubled_nth {A} (l : list A) k d : (k < length l)%nat -> nth (2 * k) (doubled l) d = nth k l d /\ nth (2 * k + 1) (doubled l) d = nth k l d.
Proof.
  revert k. induction l as [|x l IH]; intros k Hk; [inversion Hk|]. destruct k as [|k]; [split; reflexivity|].
  cbn [length] in Hk. destruct (IH k ltac:(lia)) as (A1 & A2). change (doubled (x :: l)) with (x :: x :: doubled l).
  replace (2 * S k)%nat with (S (S (2 * k))) by lia. replace (S (S (2 * k)) + 1)%nat with (S (S (2 * k + 1))) by lia. cbn [nth]. now split.
Qed.
Lemma doubled_length {A} (l : list A) : length (doubled l) = (2 * length l)%nat.
Proof. induction l as [|x l IH]; [reflexivity|]. change (doubled (x :: l)) with (x :: x :: doubled l). cbn [length]. lia. Qed.
Lemma doubled_In {A} (l : list A) x : In x (doubled l) <-> In x l.
Proof. unfold doubled. rewrite in_flat_map. split; [intros (y & Hy & [<-|[<-|[]]]); exact Hy|intros H; exists x; split; [exact H|now left]]. Qed.
Lemma doubled_map {A B} (f : A -> B) l : map f (doubled l) = doubled (map f l).
Proof. induction l as [|x l IH]; [reflexivity|]. change (doubled (x :: l)) with (x :: x :: doubled l). change (doubled (map f (x :: l))) with (f x :: f x :: doubled (map f l)). cbn [map]. now rewrite IH. Qed.
Definition real_or_low (v : val) : Prop := match v with Fin _ | NInf => True | _ => False end.
Lemma vmax_spec t : forall x, real_or_low x -> (forall y, In y t -> real_or_low y) -> exists m, fold_left (fun acc y => if vltb acc y then y else acc) t x = m /\ (m = x \/ In m t) /\
  vltb m x = false /\ forall y, In y t -> vltb m y = false.
Proof.
  assert (T : forall a b c, real_or_low a -> real_or_low b -> real_or_low c -> vltb a b = false -> vltb b c = false -> vltb a c = false).
  { intros [|a| |] [|b| |] [|c| |]; cbn; try tauto; try congruence. unfold Rlt_b. destruct (Rlt_dec a b), (Rlt_dec b c), (Rlt_dec a c); auto; try congruence; lra. }
  assert (RF : forall a, vltb a a = false) by (intros [|a| |]; cbn; auto; unfold Rlt_b; destruct (Rlt_dec a a); [lra|reflexivity]).
  assert (AS : forall a b, vltb a b = true -> vltb b a = false).
  { intros [|a| |] [|b| |]; cbn; auto; try congruence. unfold Rlt_b. destruct (Rlt_dec a b), (Rlt_dec b a); auto; try congruence; lra. }
  induction t as [|y t IH]; intros x Hx H; cbn [fold_left].
  - exists x. split; [reflexivity|]. split; [now left|]. split; [apply RF|intros y []].
  - assert (Hy : real_or_low y) by (apply H; now left).
    set (x' := if vltb x y then y else x). assert (Hx' : real_or_low x') by (unfold x'; destruct (vltb x y); assumption).
    destruct (IH x' Hx' ltac:(intros z Hz; apply H; now right)) as (m & E & I & M1 & M2). exists m. split; [exact E|].
    assert (Hm : real_or_low m) by (destruct I as [->|I]; [exact Hx'|apply H; now right]).
    split; [destruct I as [->|I]; [unfold x'; destruct (vltb x y); [right; now left|now left]|right; now right]|].
    assert (X : vltb x' x = false /\ vltb x' y = false). { unfold x'. destruct (vltb x y) eqn:L; [split; [now apply AS|apply RF]|split; [apply RF|exact L]]. }
    destruct X as (X1 & X2). split; [now apply (T m x' x)|]. intros z [<-|Hz]; [now apply (T m x' y)|now apply M2].
Qed.

(** The largest value that is not infinite is a positive number. *)
Definition largest (ds : list val) (m : R) : Prop := In (Fin m) ds /\ forall d, In d ds -> d = PInf \/ d = NInf \/ exists r, d = Fin r /\ r <= m.
Definition shown (log : bool) (ds : list val) : list val := if log then map vlog ds else ds.
Lemma plot_convergence_max ds m : largest ds m -> py_vmax (filter (fun d => vneb d PInf) (doubled ds)) = Ok (Fin m).
Proof.
  intros (I & H). set (l := filter (fun d => vneb d PInf) (doubled ds)).
  assert (L : forall d, In d l -> real_or_low d /\ In d ds).
  { intros d Hd. apply filter_In in Hd. destruct Hd as (Hd & Hn). apply (proj1 (doubled_In _ _)) in Hd. split; [|exact Hd]. destruct (H d Hd) as [->|[->|(r & -> & _)]]; [discriminate Hn|exact Logic.I|exact Logic.I]. }
  assert (Im : In (Fin m) l) by (apply filter_In; split; [now apply (proj2 (doubled_In _ _))|reflexivity]).
  destruct l as [|x t] eqn:El; [destruct Im|]. destruct (vmax_spec t x (proj1 (L x (or_introl eq_refl))) ltac:(intros y Hy; apply L; now right)) as (M & E & IM & M1 & M2).
  cbn [py_vmax]. rewrite E. f_equal.
  assert (HM : In M ds /\ real_or_low M) by (destruct IM as [->|IM]; [destruct (L x (or_introl eq_refl))|destruct (L M (or_intror IM))]; now split).
  assert (G : vltb M (Fin m) = false) by (destruct Im as [<-|Im]; [exact M1|now apply M2]).
  destruct HM as (HM & RM). destruct (H M HM) as [->|[->|(r & -> & Hr)]]; [destruct RM|discriminate G|]. cbn in G. unfold Rlt_b in G. destruct (Rlt_dec r m); [discriminate|]. f_equal. lra.
Qed.
Lemma convergence_plot ds log m : largest (shown log ds) m -> 0 < m ->
  exists p, plot_convergence ds log = Ok p /\ length (cp_xs p) = (2 * length ds)%nat /\ length (cp_ys p) = (2 * length ds)%nat /\
    (forall k j d, (k < length ds)%nat -> (j < 2)%nat -> nth k (shown log ds) NaN = d ->
       nth (2 * k + j) (cp_xs p) 0 = INR k + INR j / 2 /\
       (nth (2 * k + j) (cp_marked p) false = true <-> d = PInf) /\
       (d <> PInf -> nth (2 * k + j) (cp_ys p) NaN = d) /\
       (d = PInf -> exists h, nth (2 * k + j) (cp_ys p) NaN = Fin h /\ m < h)) /\
    (cp_legend p = true <-> In PInf (shown log ds)).
Proof.
  intros L Hm. unfold plot_convergence. fold (shown log ds). set (vs := shown log ds) in *.
  assert (Lv : length vs = length ds) by (unfold vs, shown; destruct log; [apply map_length|reflexivity]).
  rewrite (plot_convergence_max vs m L). cbn [bind]. set (top := vmul (Fin m) (Fin (3 / 2))). assert (Et : top = Fin (m * (3 / 2))) by reflexivity.
  eexists. split; [reflexivity|]. cbn [cp_xs cp_ys cp_marked cp_legend]. rewrite !map_length, seq_length, !doubled_length, Lv. split; [reflexivity|]. split; [reflexivity|].
  split.
  - intros k j d Hk Hj Hd. assert (Hi : (2 * k + j < length (doubled vs))%nat) by (rewrite doubled_length; lia).
    assert (En : nth (2 * k + j) (doubled vs) NaN = d). { destruct (doubled_nth vs k NaN ltac:(lia)) as (A1 & A2). destruct j as [|[|j]]; [rewrite Nat.add_0_r|..|lia]; congruence. }
    assert (Hin : In d vs) by (rewrite <- Hd; apply nth_In; lia).
    rewrite map_map.
    rewrite (nth_map_in (fun i => INR i / 2) (seq 0 (2 * length ds)) _ 0%nat) by (rewrite seq_length; lia). rewrite seq_nth by lia.
    rewrite (nth_map_in (fun x => negb (vneb (if vneb x PInf then x else top) top)) (doubled vs) _ NaN) by exact Hi.
    rewrite (nth_map_in (fun v => if vneb v PInf then v else top) (doubled vs) _ NaN) by exact Hi. rewrite En.
    split; [cbn [Nat.add]; replace (2 * k)%nat with (k + k)%nat by lia; rewrite !plus_INR; field|].
    destruct L as (_ & H). destruct (H d Hin) as [->|[->|(r & -> & Hr)]]; cbn [vneb veqb negb].
    + rewrite Et. unfold vneb. cbn [veqb negb]. unfold Req_b. destruct (Req_EM_T (m * (3 / 2)) (m * (3 / 2))) as [_|N]; [|congruence]. cbn [negb]. split; [split; reflexivity|]. split; [congruence|]. intros _. exists (m * (3 / 2)). split; [reflexivity|lra].
    + rewrite Et. unfold vneb. cbn [veqb negb]. split; [split; congruence|]. split; [reflexivity|congruence].
    + rewrite Et. unfold vneb. cbn [veqb negb]. unfold Req_b. destruct (Req_EM_T r (m * (3 / 2))) as [N|_]; [lra|]. cbn [negb]. split; [split; congruence|]. split; [reflexivity|congruence].
  - rewrite Bool.negb_true_iff, Nat.eqb_neq. split.
    + intros N. destruct (in_dec (fun a b => ClassicalEpsilon.excluded_middle_informative (a = b)) PInf vs) as [I|I]; [exact I|exfalso]. apply N. rewrite <- Lv, <- doubled_length. f_equal.
      assert (F : forall l, ~ In PInf l -> filter (fun d => vneb d PInf) l = l).
      { induction l as [|x l IH]; intros Nl; [reflexivity|]. cbn [filter]. assert (vneb x PInf = true) as -> by (destruct x; try reflexivity; exfalso; apply Nl; now left).
        f_equal. apply IH. intros J. apply Nl. now right. }
      rewrite F; [reflexivity|]. now rewrite doubled_In.
    + intros I E. apply (proj2 (doubled_In vs PInf)) in I. rewrite <- Lv, <- doubled_length in E.
      assert (F : forall l, In PInf l -> (length (filter (fun d => vneb d PInf) l) < length l)%nat).
      { induction l as [|x l IH]; intros J; [destruct J|]. cbn [filter length]. destruct J as [->|J].
        - cbn [vneb veqb negb]. pose proof (filter_length_le (fun d => vneb d PInf) l). lia.
        - specialize (IH J). destruct (vneb x PInf); cbn [length]; lia. }
      specialize (F _ I). lia.
Qed.
(** Where it goes wrong. *)
Lemma convergence_zero : exists p, plot_convergence [PInf; Fin 0] false = Ok p /\ nth 2 (cp_marked p) false = true /\ nth 2 (cp_ys p) NaN = Fin 0.
Proof.
  eexists. split; [reflexivity|]. assert (E : Rlt_b 0 0 = false) by (unfold Rlt_b; destruct (Rlt_dec 0 0); [lra|reflexivity]).
  unfold vneb. cbn. rewrite !E. cbn. unfold Req_b. destruct (Req_EM_T 0 (0 * (3 / 2))); [now split|lra].
Qed.
Lemma convergence_low : exists ds p h, plot_convergence ds true = Ok p /\ ds = [PInf; Fin (exp (-1))] /\ nth 0 (cp_ys p) NaN = Fin h /\ nth 2 (cp_ys p) NaN = Fin (-1) /\ h < -1.
Proof.
  assert (E : vlog (Fin (exp (-1))) = Fin (-1)).
  { unfold vlog, rlog. assert (Rlt_b 0 (exp (-1)) = true) as -> by (unfold Rlt_b; destruct (Rlt_dec 0 (exp (-1))) as [|N]; [reflexivity|destruct N; apply exp_pos]). now rewrite ln_exp. }
  assert (E1 : Rlt_b (-1) (-1) = false) by (unfold Rlt_b; destruct (Rlt_dec (-1) (-1)); [lra|reflexivity]).
  exists [PInf; Fin (exp (-1))]. do 2 eexists. unfold plot_convergence. cbn [map]. rewrite E. cbn [vlog doubled flat_map app filter vneb veqb negb py_vmax fold_left vltb bind]. rewrite E1.
  split; [reflexivity|]. split; [reflexivity|]. split; [reflexivity|]. split; [reflexivity|]. lra.
Qed.
Lemma convergence_none ds log : (forall d, In d ds -> d = PInf) -> plot_convergence ds log = Err ValueError.
Proof.
  intros H. unfold plot_convergence. fold (shown log ds).
  assert (E : filter (fun d => vneb d PInf) (doubled (shown log ds)) = []).
  { destruct (filter _ _) as [|x t] eqn:E; [reflexivity|exfalso]. assert (I : In x (x :: t)) by now left. rewrite <- E in I. apply filter_In in I. destruct I as (I & N).
    apply (proj1 (doubled_In _ _)) in I. unfold shown in I. destruct log; [apply in_map_iff in I; destruct I as (y & <- & I)|]; rewrite (H _ I) in N; discriminate N. }
  rewrite E. reflexivity.
Qed.

(** * Bars *)
Lemma mapM_F2' {A B} (f : A -> res B) l r : Forall2 (fun x y => f x = Ok y) l r -> mapM f l = Ok r.
Proof. induction 1 as [|x y l r E F IH]; [reflexivity|]. cbn. rewrite E. cbn [bind]. now rewrite IH. Qed.
Lemma bars_ok f : wf_dense f -> (forall v ns a, dget (dnames f) v = Some ns -> In a ns -> exists s, a = AStr s) ->
  exists es bars, listed f es /\ d_plot f = Ok bars /\
    Forall2 (fun e b => exists names, Forall2 (fun v s => name_of f v (e v) (AStr s)) (dvars f) names /\
                        b = (String.concat ", " names, CNum (Fin (dpot f e)))) es bars.
Proof.
  intros W H. destruct (get_df_names f W) as (es & rows & L & E & F & _). exists es.
  assert (G : exists bars, Forall2 (fun row b => (let* l := row_label (firstn (length (dvars f)) row) in let* y := py_nth row (length (dvars f)) in Ok (l, y)) = Ok b) rows bars /\
     Forall2 (fun e b => exists names, Forall2 (fun v s => name_of f v (e v) (AStr s)) (dvars f) names /\ b = (String.concat ", " names, CNum (Fin (dpot f e)))) es bars).
  { clear L E. induction F as [|e r es rows (names & Fn & ->) F (bars & B1 & B2)]; [exists []; split; constructor|].
    assert (S : exists ss, names = map AStr ss /\ Forall2 (fun v s => name_of f v (e v) (AStr s)) (dvars f) ss).
    { clear -Fn H. induction Fn as [|v a vs ns (l & Hl & Ha) Fn (ss & -> & Fs)]; [exists []; split; [reflexivity|constructor]|].
      destruct (H v l a Hl (nth_error_In _ _ Ha)) as (s & ->). exists (s :: ss). split; [reflexivity|]. constructor; [exists l; now split|exact Fs]. }
    destruct S as (ss & -> & Fs). pose proof (Forall2_length _ _ _ Fs) as Ls.
    exists ((String.concat ", " ss, CNum (Fin (dpot f e))) :: bars). split; [|constructor; [now exists ss|exact B2]]. constructor; [|exact B1].
    rewrite Ls, map_map. replace (length ss) with (length (map (fun s => CName (AStr s)) ss)) by apply map_length. rewrite firstn_app, firstn_all, Nat.sub_diag. cbn [firstn]. rewrite app_nil_r.
    unfold row_label. rewrite (mapM_F2' cell_text (map (fun s => CName (AStr s)) ss) ss) by (clear; induction ss; constructor; [reflexivity|assumption]). cbn [bind].
    unfold py_nth. rewrite nth_error_app2, Nat.sub_diag by lia. reflexivity. }
  destruct G as (bars & B1 & B2). exists bars. split; [exact L|]. split; [|exact B2]. unfold d_plot. rewrite E. cbn [bind fr_rows]. now apply mapM_F2'.
Qed.
Lemma bars_numbers f e : wf_dense f -> d_in_range f e -> dvars f <> [] -> (forall v ns a, dget (dnames f) v = Some ns -> In a ns -> exists i, a = AInt i) ->
  d_plot f = Err TypeError.
Proof.
  intros W R Nv H. destruct (get_df_names f W) as (es & rows & (_ & _ & L) & E & F & _). unfold d_plot. rewrite E. cbn [bind fr_rows].
  specialize (L e R). destruct F as [|e0 r es rows (names & Fn & ->) F]; [destruct L|]. cbn [mapM].
  destruct (dvars f) as [|v vs]; [congruence|]. inversion Fn as [|? a ? ns (l & Hl & Ha) Fn']; subst. destruct (H v l a Hl (nth_error_In _ _ Ha)) as (i & ->). reflexivity.
Qed.
