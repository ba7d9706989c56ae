(** Samples of nonlinear Gaussians and of their mixtures; random Gaussians. *)
From Verif Require Export SampleMix NlgMore.
From Verif Require Import IntKL IntKL2.
#[global] Set Bullet Behavior "Strict Subproofs".
Local Open Scope string_scope.
Local Open Scope list_scope.
Local Open Scope R_scope.

Lemma recompute_set_joint o f x : nl_recompute o (set_joint f x) = nl_recompute o f.
Proof. reflexivity. Qed.
Lemma nl_copy_joint f c d : nl_cond f = Some c -> solid c -> (forall u, nl_upd f = Some u -> solid u) -> nl_copy f = Ok d -> exists x, d = set_joint f x.
Proof.
  intros Ec Sc Su Ed. unfold nl_copy, mk_nlg in Ed. repeat (apply bind_ok in Ed; destruct Ed as (? & ? & Ed)). injection Ed as <-.
  rename x2 into Q', x3 into c', x4 into u', x5 into j'. exists j'. unfold set_joint. f_equal.
  - unfold make_square_matrix in *. match goal with H : _ = Ok Q' |- _ => revert H end. destruct (Nat.eqb (nr (nl_Q f)) (nc (nl_Q f))); cbn; congruence.
  - match goal with H : opt_copy (nl_upd f) = Ok u' |- _ => revert H end. unfold opt_copy. destruct (nl_upd f) as [u|] eqn:Eu; [|congruence]. rewrite (copy_solid_id u (Su u eq_refl)). cbn [bind]. congruence.
  - match goal with H : opt_copy (nl_cond f) = Ok c' |- _ => revert H end. unfold opt_copy. rewrite Ec, (copy_solid_id c Sc). cbn [bind]. congruence.
Qed.
(** The joint distribution that a sample is drawn from is the one the object reports. *)
Lemma nl_recompute_joint o f A b c j : oracle_ok o -> nl_good A b c f -> (forall u, nl_upd f = Some u -> solid u) -> nl_joint_distribution o f = Ok j ->
  nl_recompute o f = Ok (set_joint f j) /\ solid j.
Proof.
  intros Ho (Wf & OK & Ec & IN) Su Ej. unfold nl_joint_distribution in Ej. apply bind_ok in Ej. destruct Ej as (d & Ed & Ej).
  destruct (nl_copy_joint f c d Ec (proj1 IN) Su Ed) as (x & ->). rewrite recompute_set_joint in Ej.
  destruct (nl_recompute_spec o f A b c Ho OK Ec IN) as (j' & Er & _ & _ & Sj & _). rewrite Er in *. cbn [bind] in Ej. injection Ej as <-. cbn [set_joint nl_joint]. split; [reflexivity|].
  apply Sj. destruct (nl_upd f); auto.
Qed.
Theorem nl_sample_spec o f A b c j num Z : oracle_ok o -> nl_good A b c f -> (forall u, nl_upd f = Some u -> solid u) -> nl_joint_distribution o f = Ok j ->
  exists f' X, nl_sample o f num Z = Ok (f', X) /\ same_kind f f' /\ nl_ev f' = nl_ev f /\ nl_upd f' = nl_upd f /\ nl_cond f' = nl_cond f /\
    nr X = length (ga_vars j) /\ nc X = num /\
    forall t z, (t < num)%nat -> (forall i, (i < length (ga_vars j))%nat -> z (nth i (ga_vars j) "") = Z i t) ->
      forall v, In v (ga_vars j) -> named_coord (Mat (nr X) 1 (fun i _ => ent X i t)) (ga_vars j) v = sampled j z v.
Proof.
  intros Ho G Su Ej. destruct (nl_recompute_joint o f A b c j Ho G Su Ej) as (Er & S). destruct (get_cov_solid j S) as (j' & C & m & w & Eg).
  destruct (g_sample_columns j j' C m w num Z S Eg) as (X & Es & X1 & X2 & X3). unfold nl_sample. rewrite Er. cbn [bind set_joint nl_joint]. rewrite Es. cbn [bind fst snd].
  eexists. exists X. split; [reflexivity|]. split; [now repeat split|]. do 3 (split; [reflexivity|]). split; [exact X1|]. split; [exact X2|]. exact X3.
Qed.
Lemma solid_plain j e0 l0 : solid j -> lp j e0 = Ok (Fin l0) -> exists j' C m w, get_cov j = Ok (j', (C, m, Fin w)) /\ plain j.
Proof.
  intros S H0. destruct (get_cov_solid j S) as (j' & C & m & w & Eg). destruct (solid_lp_cov j j' C m w S Eg) as (Sh & P & L0).
  assert (CO : cov_ok (C, m, w)) by (split; [apply P|now apply posdef_det]).
  assert (W : exists x, w = Fin x).
  { rewrite L0, (cov_log_potential_ok (length (ga_vars j))) in H0; [|exact Sh|exact CO|apply map_length]. apply ok_inj in H0. destruct w; try discriminate H0. now eexists. }
  destruct W as (x & ->). exists j', C, m, x. split; [exact Eg|]. intros e l L. rewrite L0, (cov_log_potential_ok (length (ga_vars j))) in L; [|exact Sh|exact CO|apply map_length]. apply ok_inj in L. subst l. exact I.
Qed.
Theorem nl_sample_law o f A b c j e0 l0 : oracle_ok o -> nl_good A b c f -> (forall u, nl_upd f = Some u -> solid u) -> nl_joint_distribution o f = Ok j -> lp j e0 = Ok (Fin l0) ->
  exists s, 0 < s /\ (forall e, iint (ga_vars j) (gval j) e s) /\
    forall F e I, iint (ga_vars j) (fun z => F (sampled j z) * std_density (ga_vars j) z) e I <-> iint (ga_vars j) (fun x => F x * gval j x) e (I * s).
Proof.
  intros Ho G Su Ej H0. destruct (nl_recompute_joint o f A b c j Ho G Su Ej) as (Er & S). destruct (solid_plain j e0 l0 S H0) as (j' & C & m & w & Eg & Pj).
  exists (exp w). split; [apply exp_pos|]. split; [intros e; exact (proj2 (weight_integral j j' C m (Fin w) (ga_vars j) e S Pj Eg (Permutation_refl _)))|]. intros F e I. now apply (sample_law j j' C m w).
Qed.

(** * Mixtures of nonlinear Gaussians *)
Lemma foldM_vcat d num l : forall A n, nr A = (d * n)%nat -> nc A = num -> (forall B, In B l -> nr B = d /\ nc B = num) ->
  exists X, foldM vcat l A = Ok X /\ nr X = (d * (n + length l))%nat /\ nc X = num /\
    (forall i j, (i < nr A)%nat -> ent X i j = ent A i j) /\ (forall i j k B, nth_error l k = Some B -> (i < d)%nat -> ent X (d * (n + k) + i)%nat j = ent B i j).
Proof.
  induction l as [|B l IH]; intros A n HA HC HB.
  - exists A. cbn. rewrite Nat.add_0_r. split; [reflexivity|]. split; [exact HA|]. split; [exact HC|]. split; [reflexivity|]. intros i j k B H. destruct k; discriminate.
  - destruct (HB B (or_introl eq_refl)) as (B1 & B2). cbn [foldM]. unfold vcat at 1. rewrite HC, B2, Nat.eqb_refl. cbn [bind].
    set (Y := Mat (nr A + nr B) num (fun i j => if Nat.ltb i (nr A) then ent A i j else ent B (i - nr A) j)).
    destruct (IH Y (S n)) as (X & EX & X1 & X2 & X3 & X4); [cbn; rewrite HA, B1; lia|reflexivity|intros C HCin; apply HB; now right|]. exists X. split; [exact EX|].
    split; [rewrite X1; cbn [length]; f_equal; lia|]. split; [exact X2|]. split.
    + intros i j Hi. rewrite X3 by (cbn; lia). unfold Y. cbn [ent]. destruct (Nat.ltb_spec i (nr A)); [reflexivity|lia].
    + intros i j [|k] C HCk Hi; cbn in HCk.
      * injection HCk as <-. rewrite Nat.add_0_r, <- HA. rewrite X3 by (cbn; lia). unfold Y. cbn [ent]. destruct (Nat.ltb_spec (nr A + i) (nr A)); [lia|]. f_equal. lia.
      * replace (n + S k)%nat with (S n + k)%nat by lia. now apply X4.
Qed.
Lemma concat0_ok d num l : l <> [] -> (forall B, In B l -> nr B = d /\ nc B = num) ->
  exists X, concat0 l = Ok X /\ nr X = (d * length l)%nat /\ nc X = num /\ forall i j k B, nth_error l k = Some B -> (i < d)%nat -> ent X (d * k + i)%nat j = ent B i j.
Proof.
  destruct l as [|A l]; [congruence|]. intros _ H. destruct (H A (or_introl eq_refl)) as (A1 & A2).
  destruct (foldM_vcat d num l A 1) as (X & E & X1 & X2 & X3 & X4); [lia|exact A2|intros B HB; apply H; now right|]. exists X. cbn [concat0]. split; [exact E|]. split; [rewrite X1; cbn [length]; f_equal; lia|].
  split; [exact X2|]. intros i j [|k] B HB Hi; cbn in HB.
  - injection HB as <-. rewrite Nat.mul_0_r. apply X3. lia.
  - apply (X4 i j k B HB Hi).
Qed.
Lemma enum_nth {T} (l : list T) k x : nth_error l k = Some x -> nth_error (combine (seq 0 (length l)) l) k = Some (k, x).
Proof.
  assert (H : forall (l : list T) b k, nth_error l k = Some x -> nth_error (combine (seq b (length l)) l) k = Some ((b + k)%nat, x)).
  { clear. induction l as [|y l IH]; intros b [|k] H; try discriminate; cbn in *; [injection H as ->; now rewrite Nat.add_0_r|]. rewrite (IH (S b) k H). do 2 f_equal. lia. }
  apply (H l 0%nat k).
Qed.
Theorem nm_sample_spec o f A b cvs a jm num Zs : oracle_ok o -> nm_good f A b cvs a -> (forall h u, In h (nm_nlgs a) -> nl_upd h = Some u -> solid u) ->
  nm_joint_distribution o a = Ok jm ->
  exists X, nm_sample o a num Zs = Ok X /\ nr X = (length (gm_vars jm) * length (nm_nlgs a))%nat /\ nc X = num /\
    forall k h j, nth_error (nm_nlgs a) k = Some h -> nl_joint_distribution o h = Ok j -> ga_vars j = gm_vars jm /\
      forall t z, (t < num)%nat -> (forall i, (i < length (gm_vars jm))%nat -> z (nth i (gm_vars jm) "") = Zs k i t) ->
        forall v, In v (gm_vars jm) -> named_coord (Mat (length (gm_vars jm)) 1 (fun i _ => ent X (length (gm_vars jm) * k + i)%nat t)) (gm_vars jm) v = sampled j z v.
Proof.
  intros Ho G Su Ejm. pose proof G as (Hn & _ & HL). destruct (nm_joint_spec o f A b cvs a Ho G) as (jm' & Ejm' & _ & Vjm & _). rewrite Ejm in Ejm'. injection Ejm' as <-.
  set (vs := gm_vars jm) in *. set (n := length vs) in *.
  assert (HJ : forall h, In h (nm_nlgs a) -> exists c j, nl_good A b c h /\ nl_joint_distribution o h = Ok j /\ ga_vars j = vs).
  { intros h Hh. destruct (HL h Hh) as (K1 & K2 & K3 & c & Vc & Gh). pose proof Gh as (Wh & OKh & Ec & IN). destruct (nl_joint_spec o h A b c Ho Wh OKh Ec IN) as (j & Ej & _ & _).
    exists c, j. split; [exact Gh|]. split; [exact Ej|]. rewrite (nl_joint_order o h A b c j Ho Gh Ej), Vc, K2, K3. now symmetry. }
  destruct (mapM_F2 (fun tf : nat * nlg => let* r := nl_sample o (snd tf) num (Zs (fst tf)) in Ok (snd r))
    (fun tf X => nr X = n /\ nc X = num /\ forall j, nl_joint_distribution o (snd tf) = Ok j -> forall t z, (t < num)%nat -> (forall i, (i < n)%nat -> z (nth i vs "") = Zs (fst tf) i t) ->
       forall v i, index_opt v vs = Some i -> ent X i t = sampled j z v) (combine (seq 0 (length (nm_nlgs a))) (nm_nlgs a))) as (l & E & F).
  { intros (k & h) Hin. cbn [fst snd]. pose proof (in_combine_r _ _ _ _ Hin) as Hh. destruct (HJ h Hh) as (c & j & Gh & Ej & Vj).
    destruct (nl_sample_spec o h A b c j num (Zs k) Ho Gh (fun u => Su h u Hh) Ej) as (f' & X & Es & _ & _ & _ & _ & X1 & X2 & X3). rewrite Vj in *. exists X. rewrite Es. cbn [bind snd].
    split; [reflexivity|]. split; [exact X1|]. split; [exact X2|]. intros j0 Ej0 t z Ht Hz v i Ei. rewrite Ej in Ej0. injection Ej0 as <-.
    assert (Hv : In v vs) by (apply index_opt_nth in Ei; eapply nth_error_In; exact Ei). pose proof (X3 t z Ht Hz v Hv) as H. unfold named_coord in H. rewrite Ei in H. exact H. }
  unfold nm_sample. rewrite E. cbn [bind]. assert (EL : length (combine (seq 0 (length (nm_nlgs a))) (nm_nlgs a)) = length l) by (eapply Forall2_length; exact F). rewrite combine_length, seq_length, Nat.min_id in EL.
  destruct (concat0_ok n num l) as (X & EX & X1 & X2 & X3).
  { intros ->. destruct (nm_nlgs a); [congruence|discriminate]. }
  { intros B HB. destruct (F2_in_r _ _ _ B F HB) as (tk & _ & H1 & H2 & _). now split. }
  exists X. split; [exact EX|]. split; [rewrite X1; f_equal; now symmetry|]. split; [exact X2|]. intros k h j Eh Ej.
  destruct (HJ h (nth_error_In _ _ Eh)) as (c & j' & _ & Ej' & Vj). rewrite Ej in Ej'. injection Ej' as <-. split; [exact Vj|]. intros t z Ht Hz v Hv.
  assert (Hk : (k < length l)%nat) by (rewrite <- EL; apply nth_error_Some; congruence).
  destruct (nth_error l k) as [B|] eqn:EB; [|apply nth_error_None in EB; lia]. unfold named_coord. destruct (index_opt_In v _ Hv) as (i & Ei). rewrite Ei. cbn [ent].
  assert (Hi : (i < n)%nat) by (apply index_opt_nth in Ei; apply nth_error_Some; congruence). rewrite (X3 i t k B EB Hi).
  destruct (SampleMix.F2_nth _ _ _ k _ _ F (enum_nth _ _ _ Eh) EB) as (_ & _ & H). exact (H j Ej t z Ht Hz v i Ei).
Qed.
Lemma nm_two : exists o f A b cvs a jm, oracle_ok o /\ nm_good f A b cvs a /\ (forall h u, In h (nm_nlgs a) -> nl_upd h = Some u -> solid u) /\
  nm_joint_distribution o a = Ok jm /\ length (nm_nlgs a) = 2%nat /\ gm_vars jm <> [] /\ exists u, In u (map nl_upd (nm_nlgs a)) /\ u <> None.
Proof.
  destruct ex_pair as (o & f1 & f2 & a & A & b & Ho & E1 & E2 & Ea & ND & Ga & M1 & M2 & G1 & P1 & G2 & P2 & A1 & A2 & K8 & K8' & Fa).
  destruct (nm_joint_spec o f1 A b (ga_vars exc) a Ho Ga) as (jm & Ejm & _ & Vjm & Ljm & _). exists o, f1, A, b, (ga_vars exc), a, jm.
  assert (U1 : nl_upd f1 = None) by (unfold mk_nlg in E1; repeat (apply bind_ok in E1; destruct E1 as (? & ? & E1)); injection E1 as <-; cbn in *; congruence).
  assert (U2 : nl_upd f2 = Some exu).
  { unfold mk_nlg in E2. repeat (apply bind_ok in E2; destruct E2 as (? & ? & E2)). injection E2 as <-. cbn [nl_upd].
    match goal with H : opt_copy (Some exu) = Ok _ |- _ => unfold opt_copy in H; rewrite (copy_solid_id exu su_y) in H; cbn [bind] in H; congruence end. }
  assert (Sc : solid exc) by (destruct G1 as (_ & _ & _ & IN); apply IN).
  assert (L2 : exists x1 x2, nm_nlgs a = [set_joint f1 x1; set_joint f2 x2]).
  { unfold mk_nlgm in Ea. cbn [mapM] in Ea. repeat (apply bind_ok in Ea; destruct Ea as (? & ? & Ea)). injection Ea as <-. cbn [nm_nlgs].
    repeat match goal with H : bind _ _ = Ok _ |- _ => apply bind_ok in H; destruct H as (? & ? & H) end.
    repeat match goal with H : Ok _ = Ok _ |- _ => injection H as <- end.
    repeat match goal with H : nl_copy f1 = Ok _ |- _ => destruct (nl_copy_joint f1 exc _ (proj1 (proj2 (proj2 G1))) Sc ltac:(intros u Hu; rewrite U1 in Hu; discriminate Hu) H) as (? & ->); clear H end.
    repeat match goal with H : nl_copy f2 = Ok _ |- _ => destruct (nl_copy_joint f2 exc _ (proj1 (proj2 (proj2 G2))) Sc ltac:(intros u Hu; rewrite U2 in Hu; injection Hu as <-; exact su_y) H) as (? & ->); clear H end.
    do 2 eexists. reflexivity. }
  destruct L2 as (x1 & x2 & L2). split; [exact Ho|]. split; [exact Ga|]. rewrite L2. split; [|split; [exact Ejm|split; [reflexivity|split]]].
  - intros h u [<-|[<-|[]]]; cbn [set_joint nl_upd]; [rewrite U1; discriminate|rewrite U2; intros [= <-]; exact su_y].
  - intros N. rewrite N in Vjm. assert (H : In "x2" (jorder o (ga_vars exc) (nl_cal f1) (nl_ev f1))); [|rewrite <- Vjm in H; exact H].
    destruct G1 as (W1 & OK1 & Ec & IN). destruct (nl_joint_spec o f1 A b exc Ho W1 OK1 Ec IN) as (j & Ej & (_ & _ & Vj & _) & _).
    rewrite <- (nl_joint_order o f1 A b exc j Ho (conj W1 (conj OK1 (conj Ec IN))) Ej). apply Vj. rewrite K8. split; [left; now left|]. intros [H|[]]; discriminate H.
  - exists (Some exu). cbn. rewrite U2. split; [tauto|discriminate].
Qed.
Theorem nm_sample_stacked : exists o a jm, oracle_ok o /\ nm_joint_distribution o a = Ok jm /\ length (nm_nlgs a) = 2%nat /\
  forall num Zs, exists X, nm_sample o a num Zs = Ok X /\ nr X = (2 * length (gm_vars jm))%nat /\ nr X <> length (gm_vars jm).
Proof.
  destruct nm_two as (o & f & A & b & cvs & a & jm & Ho & G & Su & Ejm & L & N & _). exists o, a, jm. split; [exact Ho|]. split; [exact Ejm|]. split; [exact L|]. intros num Zs.
  destruct (nm_sample_spec o f A b cvs a jm num Zs Ho G Su Ejm) as (X & EX & X1 & _). exists X. rewrite L in X1. split; [exact EX|]. split; [lia|]. destruct (gm_vars jm); [congruence|cbn in *; lia].
Qed.

(** * Random Gaussians *)
Lemma diag_posdef n (U : nat -> nat -> R) : (forall i, (i < n)%nat -> 0 < U i i) -> posdef (Mat n n (fun i j => U i j * ent (meye n) i j)).
Proof.
  intros HU. split.
  { intros i j Hi Hj. cbn. destruct (Nat.eqb_spec i j) as [->|N]; [rewrite Nat.eqb_refl; reflexivity|]. destruct (Nat.eqb_spec j i); [congruence|]. change R0 with 0. ring. }
  intros u (i & Hi & Hu). cbn [nr] in *. unfold qsum. rewrite (rsum_ext _ _ (fun i => U i i * (u i * u i))).
  - apply (rsum_pos_one _ _ i); [|exact Hi|apply Rmult_lt_0_compat; [now apply HU|now apply Rsqr_pos_lt]]. intros k Hk. apply Rmult_le_pos; [now apply Rlt_le, HU|apply Rle_0_sqr].
  - intros k Hk. rewrite (rsum_ext _ _ (fun j => idn k j * (U k j * (u k * u j)))) by (intros j _; unfold idn; cbn; destruct (Nat.eqb k j); change R1 with 1; change R0 with 0; ring).
    rewrite rsum_idn by exact Hk. reflexivity.
Qed.
Theorem random_spec vars U V : (vars = [] -> make_random_gaussian vars U V = Err AssertionError) /\
  (vars <> [] -> ~ NoDup vars -> make_random_gaussian vars U V = Err ValueError) /\
  (vars <> [] -> NoDup vars -> (forall i, (i < length vars)%nat -> 0 < U i i) ->
   exists f f' C m, make_random_gaussian vars U V = Ok f /\ ga_vars f = vars /\ solid f /\ plain f /\ get_cov f = Ok (f', (C, m, Fin 0)) /\
     (forall i u, nth_error vars i = Some u -> named_coord m vars u = V i 0%nat) /\
     (forall i u v, nth_error vars i = Some u -> In v vars -> named_entry C vars u v = if string_dec u v then U i i else 0) /\
     forall ys e, Permutation ys vars -> iint ys (gval f) e 1).
Proof.
  split; [intros ->; reflexivity|]. split.
  - intros Hn Hd. unfold make_random_gaussian. destruct vars as [|v vs]; [congruence|]. cbn [length Nat.ltb Nat.leb py_assert bind]. unfold mk_cov.
    destruct (nodupb (v :: vs)) eqn:E; [destruct Hd; now apply nodupb_iff|]. reflexivity.
  - intros Hn Hd HU. unfold make_random_gaussian. set (n := length vars) in *.
    assert (E0 : Nat.ltb 0 n = true) by (apply Nat.ltb_lt; unfold n; destruct vars; [congruence|cbn; lia]). rewrite E0. cbn [py_assert bind].
    set (C := Mat n n (fun i j => U i j * ent (meye n) i j)). assert (PC : posdef C) by now apply diag_posdef. assert (Sh : shaped n (C, Mat n 1 V, Fin 0)) by now repeat split.
    rewrite (mk_cov_ok vars C (Mat n 1 V) (Fin 0) Hd Sh). exists (cov_obj vars (C, Mat n 1 V, Fin 0)), (cov_obj vars (C, Mat n 1 V, Fin 0)), C, (Mat n 1 V). split; [reflexivity|]. split; [reflexivity|].
    pose proof (solid_cov vars C (Mat n 1 V) (Fin 0) Hd Sh PC) as S. pose proof (cov_plain vars C (Mat n 1 V) 0 Hd Sh PC) as P. split; [exact S|]. split; [exact P|]. split; [apply get_cov_obj|]. split; [|split].
    + intros i u Hu. unfold named_coord. rewrite (index_opt_nth_NoDup _ _ _ Hd Hu). reflexivity.
    + intros i u v Hu Hv. unfold named_entry. rewrite (index_opt_nth_NoDup _ _ _ Hd Hu). destruct (index_opt_In v _ Hv) as (j & Ej). rewrite Ej. cbn [ent C meye]. destruct (string_dec u v) as [<-|N].
      * rewrite (index_opt_nth_NoDup _ _ _ Hd Hu) in Ej. injection Ej as <-. cbn. rewrite Nat.eqb_refl. change R1 with 1. ring.
      * cbn. destruct (Nat.eqb_spec i j) as [<-|]; [|change R0 with 0; ring]. apply index_opt_nth in Ej. congruence.
    + intros ys e HP. pose proof (proj2 (weight_integral _ _ C (Mat n 1 V) (Fin 0) ys e S P (get_cov_obj _ _) HP)) as H. cbn [pot] in H. now rewrite exp_0 in H.
Qed.
