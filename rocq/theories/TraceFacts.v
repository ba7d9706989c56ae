(** Facts about the record of the message passing. *)
From Verif Require Export TraceModel GraphTheorems.
From Coq Require Import Lia Permutation.
Local Open Scope string_scope.
Local Open Scope nat_scope.
Local Open Scope list_scope.

Section Trace.
Context {F V : Type} (ops : fops F V).
Notation tr := (traced F V).
Notation graph := (cgraph F V).
Definition tmap {A B} (f : A -> B) (r : res A) : res B := let* x := r in Ok (f x).
Definition sized (t : tr) : Prop := length (t_hist t) = length (g_paths (t_g t)).

Lemma py_nth_lt {A} (l : list A) k : k < length l -> exists x, py_nth l k = Ok x.
Proof. intros H. unfold py_nth. destruct (nth_error l k) eqn:E; [eauto|]. apply nth_error_None in E. lia. Qed.
Lemma list_set_lt {A} (l : list A) k x : k < length l -> exists l', list_set l k x = Ok l'.
Proof.
  revert k. induction l as [|a l IH]; intros k H; cbn in H; [lia|]. destruct k as [|k]; cbn [list_set]; [eauto|].
  destruct (IH k ltac:(lia)) as (l' & E). rewrite E. cbn. eauto.
Qed.
Lemma py_nth_bound {A} (l : list A) k x : py_nth l k = Ok x -> k < length l.
Proof. intros H. apply py_nth_inv in H. apply nth_error_Some. congruence. Qed.

(** ** The graph inside *)
Lemma recompute_at_same cls ps hs k : length hs = length ps ->
  tmap fst (t_recompute_at ops cls (ps, hs) k) = recompute_at ops cls ps k /\
  forall s, t_recompute_at ops cls (ps, hs) k = Ok s -> length (snd s) = length (fst s).
Proof.
  intros E. unfold t_recompute_at, recompute_at. cbn [fst snd].
  destruct (py_nth ps k) as [p|e] eqn:Ep; [|split; [reflexivity|discriminate]]. cbn [bind]. pose proof (py_nth_bound _ _ _ Ep) as Lk.
  destruct (recompute ops cls p) as [p'|e]; [|split; [reflexivity|discriminate]]. cbn [bind].
  destruct (list_set_lt ps k p' Lk) as (ps' & Es). rewrite Es. cbn [bind].
  destruct (py_nth_lt hs k ltac:(lia)) as (h & Eh). rewrite Eh. cbn [bind].
  destruct (list_set_lt hs k (h ++ [p_gain p']) ltac:(lia)) as (hs' & Eh'). rewrite Eh'. cbn [bind tmap].
  split; [reflexivity|]. intros s Hs. injection Hs as <-. cbn. apply list_set_inv in Es, Eh'. destruct Es as (_ & -> & _), Eh' as (_ & -> & _). exact E.
Qed.
Lemma recomputes_same cls ks : forall ps hs, length hs = length ps ->
  tmap fst (foldM (t_recompute_at ops cls) ks (ps, hs)) = foldM (recompute_at ops cls) ks ps /\
  forall s, foldM (t_recompute_at ops cls) ks (ps, hs) = Ok s -> length (snd s) = length (fst s).
Proof.
  induction ks as [|k ks IH]; intros ps hs E; cbn [foldM]; [split; [reflexivity|]; intros s Hs; injection Hs as <-; exact E|].
  destruct (recompute_at_same cls ps hs k E) as (A & B). rewrite <- A. destruct (t_recompute_at ops cls (ps, hs) k) as [[ps1 hs1]|e]; cbn [bind tmap fst]; [|split; [reflexivity|discriminate]].
  apply IH. exact (B _ eq_refl).
Qed.
Lemma pass_same t k : sized t -> tmap t_g (t_pass ops t k) = pass_path ops (t_g t) k /\ forall t', t_pass ops t k = Ok t' -> sized t' /\ t_msgs t' = t_msgs t.
Proof.
  intros E. unfold t_pass, pass_path. unfold sized in E. cbn zeta.
  destruct (py_nth (g_paths (t_g t)) k) as [p|e] eqn:Ep; [|split; [reflexivity|discriminate]]. cbn [bind]. pose proof (py_nth_bound _ _ _ Ep) as Lk.
  destruct (py_nth (g_cl (t_g t)) (p_rcv p)) as [cr|e]; [|split; [reflexivity|discriminate]]. cbn [bind].
  destruct (receive_message ops cr (p_next p)) as [cr'|e]; [|split; [reflexivity|discriminate]]. cbn [bind].
  destruct (list_set (g_cl (t_g t)) (p_rcv p) cr') as [cls|e]; [|split; [reflexivity|discriminate]]. cbn [bind].
  match goal with |- context [list_set (g_paths (t_g t)) k ?q] => destruct (list_set_lt (g_paths (t_g t)) k q Lk) as (ps1 & Es) end. rewrite Es. cbn [bind].
  destruct (py_nth_lt (t_hist t) k ltac:(lia)) as (h & Eh). rewrite Eh. cbn [bind].
  destruct (list_set_lt (t_hist t) k (h ++ [Fin 0]) ltac:(lia)) as (hs1 & Eh'). rewrite Eh'. cbn [bind].
  apply list_set_inv in Es, Eh'. destruct Es as (_ & E1 & _), Eh' as (_ & E2 & _).
  destruct (recomputes_same cls (cl_out cr') ps1 hs1 ltac:(lia)) as (A & B). rewrite <- A.
  destruct (foldM (t_recompute_at ops cls) (cl_out cr') (ps1, hs1)) as [[ps2 hs2]|e]; cbn [bind tmap fst snd]; [|split; [reflexivity|discriminate]].
  split; [reflexivity|]. intros t' Ht. injection Ht as <-. split; [exact (B _ eq_refl)|reflexivity].
Qed.
Lemma step_same debug t : sized t -> tmap (fun r => (t_g (fst r), snd r)) (t_iter ops debug t) = process_step ops (t_g t) /\ forall r, t_iter ops debug t = Ok r -> sized (fst r).
Proof.
  intros E. unfold t_iter, process_step. destruct (py_nth (g_order (t_g t)) 0) as [k|e]; [|split; [reflexivity|discriminate]]. cbn [bind].
  destruct (py_nth (g_paths (t_g t)) k) as [p|e] eqn:Ep.
  2: { unfold pass_path. rewrite Ep. split; [reflexivity|discriminate]. }
  cbn [bind]. set (t1 := {| t_g := t_g t; t_hist := t_hist t; t_msgs := _ |}).
  destruct (pass_same t1 k E) as (A & B). change (t_g t1) with (t_g t) in A. rewrite <- A.
  destruct (t_pass ops t1 k) as [t2|e]; cbn [bind tmap]; [|split; [reflexivity|discriminate]]. destruct (B t2 eq_refl) as [B1 _].
  match goal with |- context [py_nth (g_order ?X) 0] => set (g2 := X) end.
  destruct (py_nth (g_order g2) 0) as [k'|e]; cbn [bind]; [|split; [reflexivity|discriminate]].
  destruct (py_nth (g_paths g2) k') as [p'|e]; cbn [bind]; [|split; [reflexivity|discriminate]].
  split; [reflexivity|]. intros r Hr. injection Hr as <-. exact B1.
Qed.
Lemma loop_same debug tol n : forall t, sized t -> tmap t_g (t_loop ops debug tol n t) = process_loop ops tol n (t_g t) /\ forall t', t_loop ops debug tol n t = Ok t' -> sized t'.
Proof.
  induction n as [|n IH]; intros t E; cbn [t_loop process_loop]; [split; [reflexivity|]; intros t' H; injection H as <-; exact E|].
  destruct (step_same debug t E) as (A & B). rewrite <- A. destruct (t_iter ops debug t) as [[t1 gain]|e]; cbn [bind tmap fst snd]; [|split; [reflexivity|discriminate]].
  pose proof (B _ eq_refl) as B1. cbn in B1. destruct (vleb gain (Fin tol)); [split; [reflexivity|]; intros t' H; injection H as <-; exact B1|]. now apply IH.
Qed.
Lemma process_same_graph debug tol n t : sized t -> tmap t_g (t_process ops debug tol n t) = process_graph ops tol n (t_g t) /\
  forall t', t_process ops debug tol n t = Ok t' -> sized t'.
Proof.
  intros E. unfold t_process. cbn zeta. change (g_cl (reset_dists (t_g t))) with (g_cl (t_g t)).
  assert (P : forall c, g_cl (t_g t) = [c] -> forall g', process_graph ops tol n (t_g t) = Ok g' -> g_paths g' = g_paths (t_g t)).
  { intros c Ec g' H. unfold process_graph in H. cbn zeta in H. change (g_cl (reset_dists (t_g t))) with (g_cl (t_g t)) in H. rewrite Ec in H.
    destruct (g_spec (reset_dists (t_g t))); [injection H as <-; reflexivity|]. apply bind_ok in H. destruct H as (f & _ & H). injection H as <-. reflexivity. }
  destruct (g_cl (t_g t)) as [|c [|c' l]] eqn:Ec.
  - destruct (loop_same debug tol (n * length (g_order (reset_dists (t_g t)))) {| t_g := sort_paths (reset_dists (t_g t)); t_hist := t_hist t; t_msgs := t_msgs t |} E) as (A & B).
    split; [|exact B]. rewrite A. unfold process_graph. cbn zeta. change (g_cl (reset_dists (t_g t))) with (g_cl (t_g t)). rewrite Ec. reflexivity.
  - specialize (P c eq_refl). destruct (process_graph ops tol n (t_g t)) as [g'|e]; cbn [bind tmap]; [|split; [reflexivity|discriminate]].
    split; [reflexivity|]. intros t' H. injection H as <-. unfold sized. cbn. rewrite (P g' eq_refl). exact E.
  - destruct (loop_same debug tol (n * length (g_order (reset_dists (t_g t)))) {| t_g := sort_paths (reset_dists (t_g t)); t_hist := t_hist t; t_msgs := t_msgs t |} E) as (A & B).
    split; [|exact B]. rewrite A. unfold process_graph. cbn zeta. change (g_cl (reset_dists (t_g t))) with (g_cl (t_g t)). rewrite Ec. reflexivity.
Qed.
Lemma new_sized g : sized (t_new g).
Proof. unfold sized, t_new. cbn. now rewrite map_length. Qed.

(** ** One pass *)
Lemma recompute_gains cls ks : NoDup ks -> forall ps hs s, length hs = length ps -> foldM (t_recompute_at ops cls) ks (ps, hs) = Ok s ->
  forall q h, nth_error (snd s) q = Some h -> exists h0, nth_error hs q = Some h0 /\
    (In q ks -> exists p, nth_error (fst s) q = Some p /\ h = h0 ++ [p_gain p]) /\ (~ In q ks -> h = h0 /\ nth_error (fst s) q = nth_error ps q).
Proof.
  induction 1 as [|k ks Nk Nd IH]; intros ps hs s E H q h Hq; cbn [foldM] in H.
  - injection H as <-. exists h. split; [exact Hq|]. split; [intros []|auto].
  - apply bind_ok in H. destruct H as ([ps1 hs1] & H1 & H). destruct (recompute_at_same cls ps hs k E) as (_ & B).
    destruct (IH ps1 hs1 s (B _ H1) H q h Hq) as (h1 & Q1 & Q2 & Q3).
    unfold t_recompute_at in H1. cbn [fst snd] in H1. apply bind_ok in H1. destruct H1 as (p & Hp & H1). apply bind_ok in H1. destruct H1 as (p' & Hr & H1).
    apply bind_ok in H1. destruct H1 as (ps' & Sp & H1). apply bind_ok in H1. destruct H1 as (h2 & Hh & H1). apply bind_ok in H1. destruct H1 as (hs' & Sh & H1).
    injection H1 as -> ->. apply list_set_inv in Sp, Sh. destruct Sp as (_ & _ & Sp), Sh as (_ & _ & Sh). apply py_nth_inv in Hh.
    rewrite Sh in Q1. destruct (Nat.eq_dec q k) as [->|N].
    + injection Q1 as <-. exists h2. split; [exact Hh|]. split; [|intros C; elim C; now left]. intros _. destruct (Q3 Nk) as (-> & Q4).
      exists p'. split; [|reflexivity]. rewrite Q4, Sp. destruct (Nat.eq_dec k k); congruence.
    + exists h1. split; [exact Q1|]. split.
      * intros [C|C]; [congruence|]. now apply Q2.
      * intros C. destruct (Q3 ltac:(intros X; apply C; now right)) as (-> & Q4). split; [reflexivity|]. rewrite Q4, Sp. destruct (Nat.eq_dec q k); congruence.
Qed.
(** Every pass adds a zero to the curve of its path and then the new gain to the curves of the paths
    that leave the receiver. *)
Lemma pass_gains t k t' : sized t -> (forall i ci, nth_error (g_cl (t_g t)) i = Some ci -> NoDup (cl_out ci)) -> t_pass ops t k = Ok t' ->
  exists p cr, nth_error (g_paths (t_g t)) k = Some p /\ nth_error (g_cl (t_g t)) (p_rcv p) = Some cr /\
  forall q h, nth_error (t_hist t') q = Some h -> exists h0 p', nth_error (t_hist t) q = Some h0 /\ nth_error (g_paths (t_g t')) q = Some p' /\
    h = h0 ++ (if Nat.eq_dec q k then [Fin 0] else []) ++ (if in_dec Nat.eq_dec q (cl_out cr) then [p_gain p'] else []).
Proof.
  intros E Hnd H. unfold t_pass in H. cbn zeta in H. apply bind_ok in H. destruct H as (p & Hp & H). apply bind_ok in H. destruct H as (cr & Hcr & H).
  apply bind_ok in H. destruct H as (cr' & Hr & H). apply bind_ok in H. destruct H as (cls & Hcl & H). apply bind_ok in H. destruct H as (ps1 & Sp & H).
  apply bind_ok in H. destruct H as (h1 & Hh & H). apply bind_ok in H. destruct H as (hs1 & Sh & H). apply bind_ok in H. destruct H as (s & Hs & H).
  injection H as <-. cbn [t_g t_hist g_paths]. apply py_nth_inv in Hp, Hcr, Hh. exists p, cr. split; [exact Hp|]. split; [exact Hcr|].
  apply list_set_inv in Sp, Sh. destruct Sp as (Lk & L1 & Sp), Sh as (_ & L2 & Sh). pose proof (receive_fields _ _ _ _ Hr) as RF.
  assert (Eo : cl_out cr' = cl_out cr) by (destruct RF as (_ & _ & RF); tauto). rewrite Eo in Hs. unfold sized in E.
  intros q h Hq. destruct (recompute_gains cls (cl_out cr) (Hnd _ _ Hcr) ps1 hs1 s ltac:(lia) Hs q h Hq) as (h0 & Q1 & Q2 & Q3).
  rewrite Sh in Q1.
  assert (Hl : q < length (fst s)).
  { destruct (recomputes_same cls (cl_out cr) ps1 hs1 ltac:(lia)) as (_ & B). rewrite <- (B s Hs). apply nth_error_Some. congruence. }
  destruct (nth_error (fst s) q) as [p'|] eqn:Ep'; [|apply nth_error_None in Ep'; lia].
  destruct (in_dec Nat.eq_dec q (cl_out cr)) as [I|I].
  - destruct (Q2 I) as (p2 & P2 & ->). injection P2 as <-. destruct (Nat.eq_dec q k) as [->|N].
    + injection Q1 as <-. exists h1, p'. split; [exact Hh|]. split; [reflexivity|]. now rewrite <- app_assoc.
    + exists h0, p'. split; [exact Q1|]. split; [reflexivity|]. reflexivity.
  - destruct (Q3 I) as (-> & Q4). destruct (Nat.eq_dec q k) as [->|N].
    + injection Q1 as <-. exists h1, p'. split; [exact Hh|]. split; [reflexivity|]. now rewrite app_nil_r.
    + exists h0, p'. split; [exact Q1|]. split; [reflexivity|]. now rewrite !app_nil_r.
Qed.
End Trace.
