(** The record of the chain of GraphExamples2.v. *)
From Verif Require Export TraceShow GraphExamples3.
Local Open Scope string_scope.
Local Open Scope nat_scope.
Local Open Scope list_scope.
Notation sio := (sparse_ops id_oracle).

(** One message from the first cluster to the second: the path from the third cluster to the second
    has no new point. *)
Lemma gx_uneven : exists g k t, mk_graph sio id_oracle gx_chain0 None gx_special = Ok g /\ length (g_paths g) = 4 /\ t_pass sio (t_new g) k = Ok t /\
  exists q h h', nth_error (t_hist t) k = Some h /\ nth_error (t_hist t) q = Some h' /\ length h = 2 /\ length h' = 1.
Proof.
  destruct gx_tree as (g & Hmk & TR & Hl). destruct (gx_links gx_chain0 gx_special g (or_intror eq_refl) (or_intror eq_refl) Hmk) as (_ & HE & _ & Hp).
  assert (L1 : linked g 0 1) by (apply HE; cbn; auto). assert (L2 : linked g 2 1) by (apply HE; cbn; auto 6).
  destruct L1 as (k & p & Hk & S1 & R1), L2 as (q & p2 & Hq & S2 & R2). destruct gx_positive0 as (P1 & P2 & P3).
  destruct (sparse_never_fails two id_oracle gx_chain0 None gx_special g zero_env g id_oracle_ok gx_chain0_good Hmk P1 P2 P3 (hi_init _ _)) as [A _].
  destruct (A k) as (g1 & Hg1); [apply nth_error_Some; congruence|].
  change g with (t_g (t_new g)) in Hg1 at 1. rewrite <- (proj1 (TraceFacts.pass_same sio (t_new g) k (new_sized g))) in Hg1. apply tmap_inv in Hg1. destruct Hg1 as (t & Ht & ->).
  exists g, k, t. split; [exact Hmk|]. split; [exact Hp|]. split; [exact Ht|].
  assert (Hf : foldM (t_pass sio) [k] (t_new g) = Ok t) by (cbn [foldM]; rewrite Ht; reflexivity).
  pose proof (t_history_sized sio g t (passes_recorded sio g [k] t Hf)) as Sz. unfold sized in Sz.
  assert (Lt : length (g_paths (t_g t)) = length (g_paths g)).
  { destruct (t_static sio id_oracle id_oracle_ok gx_chain0 None gx_special g Hmk t (passes_recorded sio g [k] t Hf)) as (_ & _ & _ & X). exact X. }
  assert (Lk : k < 4 /\ q < 4) by (rewrite <- Hp; split; apply nth_error_Some; congruence).
  destruct (nth_error (t_hist t) k) as [h|] eqn:Eh; [|apply nth_error_None in Eh; lia]. destruct (nth_error (t_hist t) q) as [h'|] eqn:Eh'; [|apply nth_error_None in Eh'; lia].
  exists q, h, h'. split; [reflexivity|]. split; [exact Eh'|].
  assert (N : k <> q) by (intros ->; congruence).
  rewrite (curve_length sio id_oracle id_oracle_ok gx_chain0 None gx_special g Hmk [k] t k p h Hf Hk Eh), (curve_length sio id_oracle id_oracle_ok gx_chain0 None gx_special g Hmk [k] t q p2 h' Hf Hq Eh').
  cbn [count_occ filter]. unfold leads. rewrite Hk, S1, S2, R1. destruct (Nat.eq_dec k k); [|congruence]. destruct (Nat.eq_dec k q); [congruence|]. cbn. auto.
Qed.
(** The record of process_graph in debug mode. *)
Lemma gx_debug tol n : exists g t, mk_graph sio id_oracle gx_chain0 None gx_special = Ok g /\ length (g_cl g) = 3 /\ t_process sio true tol n (t_new g) = Ok t /\ t_history sio g t.
Proof.
  destruct (gx_process tol n) as (g & g' & Hmk & _ & L1 & _ & Hp). change g with (t_g (t_new g)) in Hp at 1. rewrite <- (proj1 (process_same_graph sio true tol n (t_new g) (new_sized g))) in Hp.
  apply tmap_inv in Hp. destruct Hp as (t & Ht & _). exists g, t. split; [exact Hmk|].
  split; [exact (proj1 (gx_links gx_chain0 gx_special g (or_intror eq_refl) (or_intror eq_refl) Hmk))|]. split; [exact Ht|].
  eapply th_process; [apply th_init|left; exact L1|exact Ht].
Qed.
Lemma gx_unsent : exists g, mk_graph sio id_oracle gx_chain0 None gx_special = Ok g /\ length (g_paths g) = 4 /\ last_passed g = Err AttributeError.
Proof.
  destruct gx_tree as (g & Hmk & TR & Hl). destruct (gx_links gx_chain0 gx_special g (or_intror eq_refl) (or_intror eq_refl) Hmk) as (_ & _ & _ & Hp).
  exists g. split; [exact Hmk|]. split; [exact Hp|]. apply (last_passed_iff sio id_oracle id_oracle_ok gx_chain0 None gx_special g Hmk g (hi_init _ _)).
  destruct (nth_error (g_paths g) 0) as [p|] eqn:E; [|apply nth_error_None in E; lia]. exists 0, p. split; [exact E|].
  destruct (mk_graph_made sio id_oracle gx_chain0 None gx_special g id_oracle_ok Hmk) as (reduced & final & M). exact (proj1 (mk_path _ _ _ _ _ _ _ _ M 0 p E)).
Qed.
(** A run in which every path has been used. *)
Lemma gx_sent_all : exists g0 g fs, mk_graph sio id_oracle gx_chain0 None gx_special = Ok g0 /\ history sio g0 g /\ last_passed g = Ok fs /\ length fs = 4.
Proof.
  destruct gx_all_sent as (g0 & g & Hmk & Hh & L & A). destruct (last_passed_iff sio id_oracle id_oracle_ok gx_chain0 None gx_special g0 Hmk g Hh) as (I & _ & X).
  destruct (proj2 I A) as (fs & Hf). exists g0, g, fs. split; [exact Hmk|]. split; [exact Hh|]. split; [exact Hf|]. pose proof (X fs Hf) as E. apply Forall2_length in E. rewrite <- E.
  destruct (mk_graph_made sio id_oracle gx_chain0 None gx_special g0 id_oracle_ok Hmk) as (reduced & final & M).
  destruct (history_static sio _ _ _ _ _ _ _ _ M Hh) as (SA & _). pose proof (Permutation.Permutation_length (st_order _ _ (sa_struct _ _ _ SA))) as HL. rewrite seq_length in HL. lia.
Qed.
(** With at least one round allowed, the record is not empty. *)
Lemma t_loop_some {F V} (ops : fops F V) tol n t t' : t_loop ops true tol (S n) t = Ok t' -> length (t_msgs t) < length (t_msgs t').
Proof.
  revert t. induction n as [|n IH]; intros t H; cbn [t_loop] in H; apply bind_ok in H; destruct H as (r & Hr & H);
    destruct (iter_pass ops true t r Hr) as (k & p & t1 & _ & _ & _ & _ & E & _); apply (f_equal (@length _)) in E; rewrite app_length in E; cbn in E.
  - destruct (vleb (snd r) (Fin tol)); injection H as <-; lia.
  - destruct (vleb (snd r) (Fin tol)); [injection H as <-; lia|]. specialize (IH (fst r)). cbn [t_loop] in IH. specialize (IH H). lia.
Qed.
Lemma gx_debug_some tol n : exists g t, mk_graph sio id_oracle gx_chain0 None gx_special = Ok g /\ t_process sio true tol (S n) (t_new g) = Ok t /\ 0 < length (t_msgs t).
Proof.
  destruct (gx_debug tol (S n)) as (g & t & Hmk & L & Hp & _). exists g, t. split; [exact Hmk|]. split; [exact Hp|].
  destruct (gx_links gx_chain0 gx_special g (or_intror eq_refl) (or_intror eq_refl) Hmk) as (_ & _ & _ & Hl).
  destruct (mk_graph_made sio id_oracle gx_chain0 None gx_special g id_oracle_ok Hmk) as (reduced & final & M).
  destruct (history_static sio _ _ _ _ _ _ _ _ M (hi_init sio g)) as (SA & _). pose proof (Permutation.Permutation_length (st_order _ _ (sa_struct _ _ _ SA))) as HL. rewrite seq_length in HL.
  unfold t_process in Hp. cbn zeta in Hp. change (g_cl (reset_dists (t_g (t_new g)))) with (g_cl g) in Hp. change (g_order (reset_dists (t_g (t_new g)))) with (g_order g) in Hp.
  destruct (g_cl g) as [|c [|c2 l]]; [discriminate L|discriminate L|]. rewrite HL, Hl in Hp. cbn [Nat.mul Nat.add] in Hp. apply t_loop_some in Hp. cbn in Hp. lia.
Qed.
