(** Examples for DisplayFacts.v and DisplayMore.v. *)
From Coq Require Import String List Lia Lra.
Import ListNotations.
From Verif Require Export DisplayMore NlgOps NlgMix.
From Verif Require Import GaussFacts GaussExamples GaussEq MixFacts MixExamples NlgJoint NlgExamples NlgExamples3 SparseModel SparseExamples GraphExamples BaseFacts MxSmall GaussLaws.
Local Open Scope string_scope.
Local Open Scope list_scope.

Lemma vac_wf v g : exists f, make_vacuous [v] g = Ok f /\ wf_gauss f /\ ga_vac f = true /\ ga_cov f = None /\
  ga_can f = Some (mzeros 1 1, mzeros 1 1, g) /\ prec_vacuous (mzeros 1 1) = true.
Proof.
  rewrite vacuous_made. eexists. split; [reflexivity|]. cbn [ga_vac ga_cov ga_can]. split; [|repeat split; apply zeros_vacuous].
  split; [repeat constructor; intros []|]. split; [left; cbn; congruence|]. split; cbn [ga_can ga_cov]; [intros p [= <-]; now repeat split|discriminate].
Qed.
Lemma repr_vacuous_ex : exists f, make_vacuous ["a"] (Fin 0) = Ok f /\ wf_gauss f /\ g_repr f = Err PyException /\ exists t, g_show f = Ok t.
Proof.
  destruct (vac_wf "a" (Fin 0)) as (f & E & W & V & C & K & P). exists f. do 2 (split; [assumption|]). split; [exact (repr_vacuous f _ _ _ W C K P)|].
  eexists. exact (show_stored f W).
Qed.
(** A precision matrix that is neither vacuous nor invertible. *)
Definition flat : gauss := {| ga_vars := ["a"; "b"]; ga_vac := false; ga_can := Some (Mat 2 2 (fun i j => if Nat.eqb i 0 then if Nat.eqb j 0 then 1%R else 0%R else 0%R), mzeros 2 1, Fin 0); ga_cov := None |}.
Lemma nl_show_good o f A b c : oracle_ok o -> nl_good A b c f -> exists j j', nl_joint_distribution o f = Ok j /\ wf_gauss j' /\
  nl_show o f = Ok (set_joint f j', [IText "Non-linear Gaussian"; INames "conditioning variables:" (nl_cing f); INames "conditional variables:" (nl_cal f);
           IArr "noise covariance" (nl_Q f); IText "joint_distribution"] ++ shown j' ++
          [IText "conditional update distribution"] ++ opt_shown (nl_upd f) ++ [IText "conditioning distribution"] ++ shown c) /\
  (forall v, In v (ga_vars j') <-> In v (ga_vars j)) /\
  (forall e, obeys (nl_ev f) e -> lp j' e = lp j e) /\
  nl_joint_distribution o (set_joint f j') = Ok j /\ forall vrs keep, nl_marginalize o (set_joint f j') vrs keep = nl_marginalize o f vrs keep.
Proof.
  intros Ho (Wf & OK & Ec & IN). destruct (nl_recompute_spec o f A b c Ho OK Ec IN) as (j' & E & W & _ & _ & Vj' & L').
  destruct (nl_joint_spec o f A b c Ho Wf OK Ec IN) as (j & Ej & (_ & _ & Vj & L) & _). destruct (nl_copy_spec f Wf) as (d & Ed & _).
  pose proof Wf as (_ & _ & _ & _ & Wu & Wc).
  assert (ES := nl_show_ok o f (set_joint f j') E W). assert (opt_wf (nl_upd f)) as Hu by (destruct (nl_upd f) as [u|]; [apply Wu; reflexivity|exact I]).
  assert (opt_wf (nl_cond f)) as Hc by (rewrite Ec; apply Wc; exact Ec). specialize (ES Hu Hc). rewrite Ec in ES. cbn [opt_shown] in ES.
  destruct (nl_show_same o f _ _ d ES W Ed) as (_ & S1 & _ & S2). exists j, j'. split; [exact Ej|]. split; [exact W|]. split; [exact ES|]. split; [intros v; rewrite Vj', Vj; tauto|].
  split; [|split; [rewrite S1; exact Ej|exact S2]].
  intros e He. destruct (L' e He) as (l1 & l2 & l3 & P1 & P2 & P3 & ->). destruct (L e He) as (k1 & k2 & k3 & Q1 & Q2 & Q3 & ->). rewrite P1 in Q1. rewrite P2 in Q2. rewrite P3 in Q3. congruence.
Qed.
Lemma nl_show_full o f A b c : oracle_ok o -> nl_good A b c f -> exists j j' tj tu tc, nl_joint_distribution o f = Ok j /\ wf_gauss j' /\
  nl_show o f = Ok (set_joint f j', [IText "Non-linear Gaussian"; INames "conditioning variables:" (nl_cing f); INames "conditional variables:" (nl_cal f);
           IArr "noise covariance" (nl_Q f); IText "joint_distribution"] ++ tj ++
          [IText "conditional update distribution"] ++ tu ++ [IText "conditioning distribution"] ++ tc) /\
  g_show j' = Ok tj /\ g_show c = Ok tc /\
  match nl_upd f with Some u => g_show u = Ok tu | None => tu = [IText "vacuous"] end /\
  (forall v, In v (ga_vars j') <-> In v (ga_vars j)) /\ (forall e, obeys (nl_ev f) e -> lp j' e = lp j e) /\
  nl_joint_distribution o (set_joint f j') = Ok j /\ forall vrs keep, nl_marginalize o (set_joint f j') vrs keep = nl_marginalize o f vrs keep.
Proof.
  intros Ho G. destruct (nl_show_good o f A b c Ho G) as (j & j' & H1 & H2 & H3 & H4). exists j, j', (shown j'), (opt_shown (nl_upd f)), (shown c).
  destruct G as (Wf & _ & Ec & _). pose proof Wf as (_ & _ & _ & _ & Wu & Wc). split; [exact H1|]. split; [exact H2|]. split; [exact H3|].
  split; [exact (show_stored _ H2)|]. split; [exact (show_stored _ (Wc c Ec))|]. split; [|exact H4].
  destruct (nl_upd f) as [u|]; [exact (show_stored _ (Wu u eq_refl))|reflexivity].
Qed.
Lemma msg_repr_ex : exists (m : msg sparse) t, ~ In (Ascii.ascii_of_nat 10) (list_ascii_of_string (m_snd m)) /\
  ~ In (Ascii.ascii_of_nat 10) (list_ascii_of_string (m_rcv m)) /\ msg_repr (fun f => Ok (String.concat "," (svars f))) m = Ok t.
Proof.
  exists {| m_fac := gx_ab; m_snd := "cl0"; m_rcv := "cl1" |}. eexists. cbn [m_snd m_rcv]. split; [cbn; intuition discriminate|]. split; [cbn; intuition discriminate|reflexivity].
Qed.
(** A neighbour that was removed and added again. *)
Definition one : sparse := {| svars := ["a"]; scards := [1]; stbl := [([0], Fin 1)]; sdef := NInf |}.
Definition one_cluster (r : dict string sparse) : cluster sparse nat :=
  {| cl_fac := one; cl_id := "m"; cl_seps := [("n", ["a"])]; cl_recv := r; cl_out := []; cl_spec := [] |}.
Definition from_n : msg sparse := {| m_fac := one; m_snd := "n"; m_rcv := "m" |}.
Definition forget {F V} (c : cluster F V) : cluster F V :=
  {| cl_fac := cl_fac c; cl_id := cl_id c; cl_seps := cl_seps c; cl_recv := []; cl_out := cl_out c; cl_spec := cl_spec c |}.
Lemma again_ex : exists c c' m1 m2, receive_message (sparse_ops id_oracle) (one_cluster []) from_n = Ok c /\
  add_neighbour (remove_all_neighbours c) "n" ["a"] = Ok c' /\ make_message (sparse_ops id_oracle) c' "n" = Ok m1 /\
  make_message (sparse_ops id_oracle) (forget c') "n" = Ok m2 /\ dget (stbl (m_fac m1)) [0] = Some (Fin 1) /\ dget (stbl (m_fac m2)) [0] = Some (Fin 2).
Proof.
  assert (E : exists c, receive_message (sparse_ops id_oracle) (one_cluster []) from_n = Ok c /\
    c = {| cl_fac := {| svars := ["a"]; scards := [1]; stbl := [([0], Fin (1 + 1))]; sdef := NInf |}; cl_id := "m"; cl_seps := [("n", ["a"])]; cl_recv := [("n", one)]; cl_out := []; cl_spec := [] |}).
  { eexists. split; [cbv - [Rplus Rminus exp ln IZR Rmax Ropp]; reflexivity|reflexivity]. }
  destruct E as (c & E & ->). do 4 eexists. split; [exact E|]. split; [reflexivity|].
  cbv - [Rplus Rminus exp ln IZR Rmax Ropp not]. pose proof (exp_pos (1 + 1)) as P.
  destruct (Rlt_dec 0 (exp (1 + 1) + 0)) as [H|H]; [|exfalso; apply H; lra]. cbv - [Rplus Rminus exp ln IZR Rmax Ropp not].
  split; [reflexivity|]. split; [reflexivity|]. assert (L : ln (exp (1 + 1) + 0) = 2%R) by (rewrite Rplus_0_r, ln_exp; lra).
  split; [do 2 f_equal; rewrite L; lra|]. cbv - [Rplus Rminus exp ln IZR Rmax Ropp not]. do 2 f_equal. exact L.
Qed.
Lemma flat_singular : wf_gauss flat /\ ga_cov flat = None /\ exists K h g, ga_can flat = Some (K, h, g) /\ prec_vacuous K = false /\ mdet K = 0%R.
Proof.
  split; [|split; [reflexivity|]].
  - split; [apply nd2; discriminate|]. split; [left; cbn; congruence|]. split; cbn [ga_can ga_cov flat]; [intros p [= <-]; now repeat split|discriminate].
  - do 3 eexists. split; [reflexivity|]. split.
    + unfold prec_vacuous. rewrite (allclose_false _ 0); [reflexivity|cbn; lia|cbn; lia|cbn; rewrite Rabs_R1; lra].
    + rewrite mdet_2 by reflexivity. cbn. ring.
Qed.
