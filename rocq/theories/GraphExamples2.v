(** A concrete tree-shaped model, with zeros, and a calibrated state of a positive one. *)
From Verif Require Export GraphConv.
Local Open Scope string_scope.
Local Open Scope nat_scope.

(** The third table of the chain with a zero entry. *)
Definition gx_cd0 : sparse :=
  {| svars := ["1#c"; "d"]; scards := [2; 2];
     stbl := [([0; 0], Fin 0); ([1; 0], Fin 4); ([1; 1], Fin (1/3))]; sdef := NInf |}.
Definition gx_chain0 : list sparse := [gx_ab; gx_bc; gx_cd0].
Lemma gx_cd0_good : sgood two gx_cd0. Proof. solve_sgood. Qed.
Lemma gx_chain0_good : forall f, In f gx_chain0 -> sgood two f.
Proof. intros f [<-|[<-|[<-|[]]]]; auto using gx_ab_good, gx_bc_good, gx_cd0_good. Qed.
Lemma gx_chain_good' : forall f, In f gx_chain -> sgood two f.
Proof. intros f H. apply gx_chain_good. right; right; exact H. Qed.
Lemma gx_positive0 : has_positive spot gx_chain0 None gx_special zero_env.
Proof.
  split; [exact I|]. split.
  - intros v x H. apply dget_In in H. cbn in H. destruct H as [H|[]]. inversion H; reflexivity.
  - intros f H. assert (G : forall x, pot (Fin x) <> 0%R) by (intros x; cbn; pose proof (exp_pos x); lra).
    repeat (destruct H as [<-|H]; [cbn; apply G|]). destruct H.
Qed.

Lemma path3 (E : nat -> nat -> Prop) : (forall i j, E i j <-> In (i, j) [(0, 1); (1, 0); (1, 2); (2, 1)]) ->
  (forall i j, i < 3 -> j < 3 -> clos_refl_trans nat E i j) /\ forall l, ~ cycle E l.
Proof.
  intros HE. split.
  - assert (S1 : clos_refl_trans nat E 0 1) by (apply rt_step, HE; cbn; tauto).
    assert (S2 : clos_refl_trans nat E 1 0) by (apply rt_step, HE; cbn; tauto).
    assert (S3 : clos_refl_trans nat E 1 2) by (apply rt_step, HE; cbn; tauto).
    assert (S4 : clos_refl_trans nat E 2 1) by (apply rt_step, HE; cbn; tauto).
    intros i j Hi Hj. apply (rt_trans _ _ _ 1).
    + destruct i as [|[|[|i]]]; [exact S1|apply rt_refl|exact S4|lia].
    + destruct j as [|[|[|j]]]; [exact S2|apply rt_refl|exact S3|lia].
  - intros l (H1 & H2 & H3 & H4).
    assert (Mid : forall x y z, E x y -> E y z -> x <> z -> y = 1).
    { intros x y z A B N. apply HE in A, B. cbn in A, B.
      repeat (destruct A as [A|A]; [inversion A; subst|]); try destruct A;
      repeat (destruct B as [B|B]; [inversion B; subst|]); try destruct B; try reflexivity; congruence. }
    destruct l as [|x [|y [|z [|w rest]]]]; cbn in H1; try lia.
    + assert (A : E x y) by (apply (H3 0); reflexivity). assert (B : E y z) by (apply (H3 1); reflexivity).
      assert (C : E z x) by (apply H4; reflexivity).
      inversion H2 as [|? ? N1 N2]; subst. inversion N2 as [|? ? N3 N4]; subst. cbn in N1, N3.
      assert (y = 1) by (apply (Mid x y z A B); intros ->; tauto).
      assert (z = 1) by (apply (Mid y z x B C); intros ->; tauto). subst. tauto.
    + assert (A : E x y) by (apply (H3 0); reflexivity). assert (B : E y z) by (apply (H3 1); reflexivity).
      assert (C : E z w) by (apply (H3 2); reflexivity).
      inversion H2 as [|? ? N1 N2]; subst. inversion N2 as [|? ? N3 N4]; subst. cbn in N1, N3.
      assert (y = 1) by (apply (Mid x y z A B); intros ->; tauto).
      assert (z = 1) by (apply (Mid y z w B C); intros ->; tauto). subst. tauto.
Qed.

Lemma gx_links fs sp g : (fs = gx_chain \/ fs = gx_chain0) -> (sp = [] \/ sp = gx_special) ->
  mk_graph (sparse_ops id_oracle) id_oracle fs None sp = Ok g -> length (g_cl g) = 3 /\
  (forall i j, linked g i j <-> In (i, j) [(0, 1); (1, 0); (1, 2); (2, 1)]) /\
  map cl_fac (g_cl g) = fs /\ length (g_paths g) = 4.
Proof.
  intros Hfs Hsp H. destruct (mk_graph_made _ id_oracle fs None sp g id_oracle_ok H) as (reduced & final & M).
  assert (Ef : final = fs).
  { pose proof (mk_reduced _ _ _ _ _ _ _ _ M) as E1. pose proof (mk_final _ _ _ _ _ _ _ _ M) as E2.
    assert (reduced = fs) by (destruct Hfs as [->| ->]; cbn in E1; now inversion E1). subst reduced.
    destruct Hfs as [->| ->]; cbv in E2; now inversion E2. }
  subst final. pose proof (mk_struct _ _ _ _ _ _ _ _ M) as ST.
  assert (Hl : length (g_cl g) = 3).
  { pose proof (made_facs _ _ _ _ _ _ _ _ M) as E. apply (f_equal (@length _)) in E. rewrite map_length in E. rewrite E.
    destruct Hfs as [->| ->]; reflexivity. }
  assert (HE : forall i j, linked g i j <-> In (i, j) [(0, 1); (1, 0); (1, 2); (2, 1)]).
  { intros i j. transitivity (exists s, graph_sep id_oracle (map svars fs) (all_evidence None sp) i j = Some s).
    - split.
      + intros (k & p & Hp & <- & <-). exact (st_path _ _ ST k p Hp).
      + intros (s & Hs). destruct (st_edge _ _ ST i j s Hs) as (_ & _ & _ & _ & _ & k & p & HH). exists k, p. exact HH.
    - split.
      + intros (s & Hs). assert (R : i < 3 /\ j < 3).
        { destruct (st_edge _ _ ST i j s Hs) as (R1 & R2 & _). lia. }
        destruct Hfs as [->| ->], Hsp as [->| ->]; destruct i as [|[|[|i]]]; try lia; destruct j as [|[|[|j]]]; try lia;
          cbn; try tauto; cbv in Hs; discriminate.
      + intros I. destruct Hfs as [->| ->], Hsp as [->| ->]; repeat (destruct I as [I|I]; [inversion I; subst; eexists; vm_compute; reflexivity|]); destruct I. }
  split; [exact Hl|]. split; [exact HE|]. split; [exact (made_facs _ _ _ _ _ _ _ _ M)|].
  assert (N1 : NoDup (map (fun p => (p_snd p, p_rcv p)) (g_paths g))).
  { apply NoDup_nth_error. intros a b Ha E. rewrite map_length in Ha. rewrite !nth_error_map in E.
    destruct (nth_error (g_paths g) a) as [pa|] eqn:Ea; [|apply nth_error_None in Ea; lia].
    destruct (nth_error (g_paths g) b) as [pb|] eqn:Eb; [|discriminate]. cbn in E. inversion E.
    exact (st_pair _ _ ST a b pa pb Ea Eb ltac:(assumption) ltac:(assumption)). }
  assert (I : forall x, In x (map (fun p => (p_snd p, p_rcv p)) (g_paths g)) <-> In x [(0, 1); (1, 0); (1, 2); (2, 1)]).
  { intros [i j]. rewrite <- HE. rewrite in_map_iff. split.
    - intros (p & E & Hp). apply In_nth_error in Hp. destruct Hp as (k & Hp). exists k, p. inversion E; auto.
    - intros (k & p & Hp & <- & <-). exists p. split; [reflexivity|]. eapply nth_error_In; eauto. }
  apply Nat.le_antisymm.
  - pose proof (NoDup_incl_length N1 (fun x => proj1 (I x))) as X. rewrite map_length in X. exact X.
  - assert (N2 : NoDup [(0, 1); (1, 0); (1, 2); (2, 1)]) by (repeat constructor; cbn; intuition discriminate).
    pose proof (NoDup_incl_length N2 (fun x => proj2 (I x))) as X. rewrite map_length in X. exact X.
Qed.
Lemma gx_tree_of fs sp g : (fs = gx_chain \/ fs = gx_chain0) -> (sp = [] \/ sp = gx_special) ->
  mk_graph (sparse_ops id_oracle) id_oracle fs None sp = Ok g -> tree_shaped g /\ length (g_cl g) = 3.
Proof.
  intros Hfs Hsp H. destruct (gx_links fs sp g Hfs Hsp H) as (Hl & HE & _).
  destruct (path3 (linked g) HE) as [P1 P2]. split; [|exact Hl]. split; [|exact P2].
  unfold connected. rewrite Hl. exact P1.
Qed.
Lemma gx_tree : exists g, mk_graph (sparse_ops id_oracle) id_oracle gx_chain0 None gx_special = Ok g /\
  tree_shaped g /\ length (g_cl g) = 3.
Proof.
  destruct (mk_graph_some (sparse_ops id_oracle) two (sgood two) spot (sparse_lawful two id_oracle id_oracle_ok)
          id_oracle gx_chain0 None gx_special zero_env id_oracle_ok gx_chain0_good gx_positive0) as (g & Hg).
  exists g. split; [exact Hg|]. apply (gx_tree_of gx_chain0 gx_special); auto.
Qed.

(** The positive chain after two sweeps: no path has a changed message to send. *)
Lemma gx_chain_nonzero e : (forall v, e v < 2) -> forall f, In f gx_chain -> spot f e <> 0%R.
Proof.
  intros He f H. assert (G : forall x, pot (Fin x) <> 0%R) by (intros x; cbn; pose proof (exp_pos x); lra).
  destruct H as [<-|[<-|[<-|[]]]]; unfold spot, sval;
    [pose proof (He "a"); pose proof (He "b,c"); cbn [svars map gx_ab]; destruct (e "a") as [|[|]], (e "b,c") as [|[|]]; try lia; cbn; apply G
    |pose proof (He "b,c"); pose proof (He "1#c"); cbn [svars map gx_bc]; destruct (e "b,c") as [|[|]], (e "1#c") as [|[|]]; try lia; cbn; apply G
    |pose proof (He "1#c"); pose proof (He "d"); cbn [svars map gx_cd]; destruct (e "1#c") as [|[|]], (e "d") as [|[|]]; try lia; cbn; apply G].
Qed.
Lemma gx_calibrated : exists g0 g, mk_graph (sparse_ops id_oracle) id_oracle gx_chain None [] = Ok g0 /\
  tree_shaped g0 /\ history (sparse_ops id_oracle) g0 g /\ nothing_to_send (sparse_ops id_oracle) two spot g /\
  exists res, get_marginal (sparse_ops id_oracle) g ["d"] = Ok res.
Proof.
  pose (L := sparse_lawful two id_oracle id_oracle_ok).
  assert (HP : has_positive spot gx_chain None [] zero_env).
  { split; [exact I|]. split; [intros v x H; discriminate|]. apply gx_chain_nonzero. intros v; unfold zero_env; lia. }
  destruct (mk_graph_some _ two (sgood two) spot L id_oracle gx_chain None [] zero_env id_oracle_ok gx_chain_good' HP) as (g0 & Hmk).
  destruct (gx_tree_of gx_chain [] g0 (or_introl eq_refl) (or_introl eq_refl) Hmk) as [TR Hl].
  destruct (sweeps_run _ two (sgood two) spot L id_oracle gx_chain None [] g0 id_oracle_ok gx_chain_good' Hmk g0 0 zero_env (hi_init _ _) TR HP ltac:(lia))
    as (ks & g & TS & Hk & Hf).
  assert (Hh : history (sparse_ops id_oracle) g0 g) by exact (history_passes _ g0 ks g0 g (hi_init _ _) Hf).
  exists g0, g. split; [exact Hmk|]. split; [exact TR|]. split; [exact Hh|].
  destruct (mk_graph_made _ id_oracle gx_chain None [] g0 id_oracle_ok Hmk) as (reduced & final & M).
  destruct (history_live _ two (sgood two) spot L id_oracle gx_chain None [] g0 id_oracle_ok gx_chain_good' reduced final g M Hh) as [Gfin LV].
  destruct (history_live _ two (sgood two) spot L id_oracle gx_chain None [] g0 id_oracle_ok gx_chain_good' reduced final g0 M (hi_init _ _)) as [_ LV0].
  pose proof (lv_inv _ _ _ _ _ _ _ _ LV) as IV. pose proof (lv_static _ _ _ _ _ _ _ _ LV) as SA.
  split.
  - pose proof (sweeps_settle _ two (sgood two) spot L id_oracle final None [] id_oracle_ok Gfin g0 ks g LV0 TS Hf) as ST.
    intros k p e Hp He. destruct (ST k p Hp) as [_ H].
    destruct (next_ok _ two (sgood two) spot L id_oracle final None [] id_oracle_ok Gfin g k p IV (sa_fresh _ _ _ SA) Hp)
      as (S & ci & cj & q & kq & HS & _ & _ & Hq & Q1 & Q2 & MO).
    destruct (mo_fac _ _ _ _ _ _ _ _ _ _ MO) as [_ HV].
    specialize (H kq q e Hq Q1 Q2 He).
    assert (NZ : pm spot q e <> 0%R).
    { unfold pm. destruct (p_prev q) as [m|] eqn:Em; [|lra].
      destruct (iv_prev _ _ _ _ _ _ _ _ IV kq q m Hq Em) as (S' & HS' & Gm & HV').
      rewrite Q1, Q2, graph_sep_sym, HS in HS'. inversion HS'; subst S'.
      pose (e' := fun v => if in_dec string_dec v S then e v else 0).
      rewrite (lw_ext _ _ _ _ L (m_fac m) e e' Gm); [|intros v Hv; unfold e'; destruct (in_dec string_dec v S) as [|C]; [reflexivity|destruct C; now apply HV']].
      apply (iv_pos _ _ _ _ _ _ _ _ IV kq q m Hq Em); [intros v x C; discriminate|].
      apply (final_pos _ two (sgood two) spot L id_oracle gx_chain None [] reduced final g0 e' M gx_chain_good'); [exact I|].
      apply gx_chain_nonzero. intros v. unfold e'. destruct (in_dec string_dec v S) as [C|]; [|lia].
      apply (He v). now apply HV. }
    apply (Rmult_eq_reg_r (pm spot q e)); [|exact NZ]. rewrite H. unfold pm at 1. ring.
  - apply (marginal_some _ two (sgood two) spot L id_oracle gx_chain None [] g0 id_oracle_ok gx_chain_good' Hmk g ["d"] zero_env Hh HP).
    + repeat constructor. intros [].
    + intros v _ [].
    + assert (Ef : final = gx_chain).
      { pose proof (mk_reduced _ _ _ _ _ _ _ _ M) as E1. pose proof (mk_final _ _ _ _ _ _ _ _ M) as E2.
        cbn in E1. inversion E1; subst reduced. cbv in E2. now inversion E2. }
      destruct (nth_error (g_cl g) 2) as [c|] eqn:Ec.
      * exists c. split; [eapply nth_error_In; eauto|]. destruct (iv_cl _ _ _ _ _ _ _ _ IV 2 c Ec) as (f & Hfn & _ & (_ & HV) & _).
        rewrite Ef in Hfn. inversion Hfn; subst f. intros v [<-|[]]. apply HV. cbn. tauto.
      * exfalso. apply nth_error_None in Ec. pose proof (iv_len _ _ _ _ _ _ _ _ IV) as E. rewrite Ef in E. cbn in E. lia.
Qed.

(** get_posterior_joint before any message has been passed. *)
Lemma gx_joint_missing : exists g, mk_graph (sparse_ops id_oracle) id_oracle gx_chain0 None gx_special = Ok g /\
  get_joint (sparse_ops id_oracle) g = Err AttributeError.
Proof.
  destruct gx_tree as (g & Hmk & [TR _] & Hl). exists g. split; [exact Hmk|].
  apply (joint_missing _ two (sgood two) spot (sparse_lawful two id_oracle id_oracle_ok) id_oracle gx_chain0 None gx_special g
    id_oracle_ok gx_chain0_good Hmk g (hi_init _ _)).
  destruct (mk_graph_made _ id_oracle gx_chain0 None gx_special g id_oracle_ok Hmk) as (reduced & final & M).
  assert (C : clos_refl_trans nat (linked g) 0 1) by (apply TR; lia).
  apply clos_rt_rt1n in C. inversion C as [|y z (k & p & Hp & _) _]; subst.
  exists k, p. split; [exact Hp|]. exact (proj1 (mk_path _ _ _ _ _ _ _ _ M k p Hp)).
Qed.

(** Special evidence a = 0 empties the message on b = 1; the quotient of potentials and messages
    is then zero at a = 1, b = 1, where the initial product is not. *)
Definition gs_ab : sparse :=
  {| svars := ["a"; "b"]; scards := [2; 2]; stbl := [([0; 0], Fin 0); ([1; 1], Fin 0)]; sdef := NInf |}.
Definition gs_bc : sparse :=
  {| svars := ["b"; "c"]; scards := [2; 2];
     stbl := [([0; 0], Fin 0); ([0; 1], Fin 0); ([1; 0], Fin 0); ([1; 1], Fin 0)]; sdef := NInf |}.
Definition gs_special : dict string nat := [("a", 0)].
Definition one_env : env := fun _ => 1.
Lemma gs_good : forall f, In f [gs_ab; gs_bc] -> sgood two f.
Proof. intros f [<-|[<-|[]]]; solve_sgood. Qed.
Lemma gs_positive : has_positive spot [gs_ab; gs_bc] None gs_special zero_env.
Proof.
  split; [exact I|]. split.
  - intros v x H. apply dget_In in H. cbn in H. destruct H as [H|[]]. inversion H; reflexivity.
  - intros f [<-|[<-|[]]]; cbn; rewrite exp_0; lra.
Qed.
Lemma gs_refuted : exists g0 g, mk_graph (sparse_ops id_oracle) id_oracle [gs_ab; gs_bc] None gs_special = Ok g0 /\
  (exists k, pass_path (sparse_ops id_oracle) g0 k = Ok g) /\
  Rprod (map (fun p => match p_prev p with Some m => spot (m_fac m) one_env | None => 1%R end) (g_paths g)) = 0%R /\
  prod_at spot (map cl_fac (g_cl g0)) one_env = 1%R.
Proof.
  pose (L := sparse_lawful two id_oracle id_oracle_ok).
  destruct (mk_graph_some _ two (sgood two) spot L id_oracle _ None gs_special zero_env id_oracle_ok gs_good gs_positive) as (g0 & Hmk).
  destruct (mk_graph_made _ id_oracle _ None gs_special g0 id_oracle_ok Hmk) as (reduced & final & M).
  assert (Ef : final = [gs_ab; gs_bc]).
  { pose proof (mk_reduced _ _ _ _ _ _ _ _ M) as E1. pose proof (mk_final _ _ _ _ _ _ _ _ M) as E2.
    cbn in E1. inversion E1; subst reduced. cbv in E2. now inversion E2. }
  destruct (history_live _ two (sgood two) spot L id_oracle _ None gs_special g0 id_oracle_ok gs_good reduced final g0 M (hi_init _ _)) as [Gfin LV].
  pose proof (lv_inv _ _ _ _ _ _ _ _ LV) as IV. pose proof (lv_static _ _ _ _ _ _ _ _ LV) as SA.
  assert (HS : graph_sep id_oracle (map svars final) (all_evidence None gs_special) 0 1 = Some ["b"]) by (rewrite Ef; vm_compute; reflexivity).
  destruct (st_edge _ _ (sa_struct _ _ _ SA) 0 1 _ HS) as (_ & _ & _ & _ & _ & k & p & Hp & P1 & P2).
  destruct (never_fails _ two (sgood two) spot L id_oracle _ None gs_special g0 id_oracle_ok gs_good Hmk zero_env g0 gs_positive (hi_init _ _)) as [Hk _].
  destruct (Hk k) as (g & Hg); [apply nth_error_Some; congruence|].
  exists g0, g. split; [exact Hmk|]. split; [eauto|]. split.
  - destruct (next_ok _ two (sgood two) spot L id_oracle final None gs_special id_oracle_ok Gfin g0 k p IV (sa_fresh _ _ _ SA) Hp)
      as (S & ci & cj & q & kq & HS' & Hci & _ & _ & _ & _ & MO).
    rewrite P1, P2 in HS'. cbn [f_vars sparse_ops] in HS'. rewrite HS in HS'. injection HS' as <-.
    assert (Z : spot (m_fac (p_next p)) one_env = 0%R).
    { apply (mo_zero _ _ _ _ _ _ _ _ _ _ MO). rewrite P1 in Hci.
      destruct (iv_cl _ _ _ _ _ _ _ _ IV 0 ci Hci) as (f & Hf & _ & _ & Hpt).
      apply (belief_zero _ two (sgood two) spot L id_oracle final None gs_special g0 0 ci ["b"] f IV Hci Hf).
      rewrite Ef in Hf. cbn in Hf. injection Hf as <-.
      intros e' He'. rewrite Hpt. replace (spot gs_ab (over gs_special e')) with 0%R; [ring|].
      unfold spot, sval. cbn [svars gs_ab map]. replace (over gs_special e' "a") with 0 by reflexivity.
      replace (over gs_special e' "b") with (e' "b") by reflexivity.
      rewrite (He' "b" (or_introl eq_refl)). reflexivity. }
    destruct (pass_path_passed _ g0 k g (struct_out _ _ (sa_struct _ _ _ SA)) Hg) as (p1 & cr & cr' & P).
    assert (p1 = p) by (pose proof (pa_path _ _ _ _ _ _ _ P); congruence). subst p1.
    assert (Hk' : k < length (g_paths g)) by (rewrite (pa_plen _ _ _ _ _ _ _ P); apply nth_error_Some; congruence).
    destruct (nth_error (g_paths g) k) as [p'|] eqn:Ep; [|apply nth_error_Some in Hk'; congruence].
    destruct (pa_paths _ _ _ _ _ _ _ P k p' Ep) as (p0 & _ & _ & _ & Epr & _).
    apply (Rprod_zero _ 0%R); [|reflexivity]. apply in_map_iff. exists p'. split; [|eapply nth_error_In; eauto].
    rewrite Epr. destruct (Nat.eq_dec k k); [exact Z|congruence].
  - rewrite (made_facs _ _ _ _ _ _ _ _ M), Ef. unfold prod_at. cbn. rewrite exp_0. ring.
Qed.

(** Processing a single cluster with special evidence a second time. *)
Lemma gx_single_refuted : exists g g1 e, mk_graph (sparse_ops id_oracle) id_oracle [gx_ab] None gs_special = Ok g /\
  length (g_cl g) = 1 /\ process_graph (sparse_ops id_oracle) 0 1 g = Ok g1 /\ process_graph (sparse_ops id_oracle) 0 1 g1 = Err e.
Proof.
  pose (L := sparse_lawful two id_oracle id_oracle_ok).
  assert (G : forall f, In f [gx_ab] -> sgood two f) by (intros f [<-|[]]; apply gx_ab_good).
  assert (HP : has_positive spot [gx_ab] None gs_special zero_env).
  { split; [exact I|]. split.
    - intros v x H. apply dget_In in H. cbn in H. destruct H as [H|[]]. inversion H; reflexivity.
    - intros f [<-|[]]. apply gx_pos. cbn. tauto. }
  destruct (mk_graph_some _ two (sgood two) spot L id_oracle _ None gs_special zero_env id_oracle_ok G HP) as (g & Hmk).
  destruct (mk_graph_made _ id_oracle _ None gs_special g id_oracle_ok Hmk) as (reduced & final & M).
  assert (Ef : final = [gx_ab]).
  { pose proof (mk_reduced _ _ _ _ _ _ _ _ M) as E1. pose proof (mk_final _ _ _ _ _ _ _ _ M) as E2.
    cbn in E1. inversion E1; subst reduced. cbv in E2. now inversion E2. }
  pose proof (made_facs _ _ _ _ _ _ _ _ M) as Ec. rewrite Ef in Ec.
  destruct (g_cl g) as [|c [|]] eqn:Eg; try discriminate. assert (Ef' : cl_fac c = gx_ab) by (cbn in Ec; congruence).
  destruct (never_fails _ two (sgood two) spot L id_oracle _ None gs_special g id_oracle_ok G Hmk zero_env g HP (hi_init _ _)) as (_ & Hpr & _).
  destruct (Hpr 0%R 1) as (g1 & Hg1).
  { repeat constructor; intros []. }
  { intros c' E v [<-|[]]. rewrite Eg in E. inversion E; subst c'. rewrite Ef'. cbn. tauto. }
  destruct (single_special_fails id_oracle 0%R 0%R 1 1 g g1 c Eg) as (e & He); [rewrite (mk_spec _ _ _ _ _ _ _ _ M); discriminate|exact Hg1|].
  exists g, g1, e. split; [assumption|]. split; [now rewrite Eg|]. auto.
Qed.
