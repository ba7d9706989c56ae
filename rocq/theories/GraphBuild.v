(** Structure of the cluster graph after construction and its preservation by message passes
    (C27, C28, C30). *)
From Verif Require Export SepsetFacts.

Lemma list_set_inv {A} (l : list A) i x l' : list_set l i x = Ok l' ->
  i < length l /\ length l' = length l /\
  forall j, nth_error l' j = if Nat.eq_dec j i then Some x else nth_error l j.
Proof.
  intros H. assert (Hi : i < length l).
  { revert i l' H. induction l as [|y l IH]; intros [|i] l' H; cbn in *; try discriminate; try lia.
    destruct (list_set l i x) eqn:E; [|discriminate]. apply IH in E. lia. }
  split; [exact Hi|]. destruct (list_set_spec l i x Hi) as (l2 & H2 & Hl & Hn). rewrite H in H2. inversion H2; subst. auto.
Qed.
Lemma map_list_set {A B} (f : A -> B) l i x l' y : list_set l i x = Ok l' -> nth_error l i = Some y -> f x = f y ->
  map f l' = map f l.
Proof.
  intros H Hy E. apply list_set_inv in H. destruct H as (Hi & Hl & Hn). apply nth_error_ext. intros j.
  rewrite !nth_error_map, Hn. destruct (Nat.eq_dec j i) as [->|]; [|reflexivity]. rewrite Hy. cbn. now rewrite E.
Qed.

Section Build.
Context {F V : Type} (ops : fops F V).

Lemma ids_inj (cls : list (cluster F V)) a b ca cb : NoDup (map cl_id cls) ->
  nth_error cls a = Some ca -> nth_error cls b = Some cb -> cl_id ca = cl_id cb -> a = b.
Proof.
  intros Hn Ha Hb E. rewrite NoDup_nth_error in Hn. apply Hn.
  - rewrite map_length. apply nth_error_Some. congruence.
  - rewrite !nth_error_map, Ha, Hb. cbn. now rewrite E.
Qed.

Lemma make_message_ext (a b : cluster F V) nid : cl_fac a = cl_fac b -> cl_id a = cl_id b -> cl_recv a = cl_recv b ->
  cl_spec a = cl_spec b -> dget (cl_seps a) nid = dget (cl_seps b) nid ->
  make_message ops a nid = make_message ops b nid.
Proof. intros H1 H2 H3 H4 H5. unfold make_message, dget_r. now rewrite H1, H2, H3, H4, H5. Qed.

(** The static structure: [sepf i j] is the sepset on the edge between clusters [i] and [j]. *)
Record struct_ok (sepf : nat -> nat -> option (list string)) (g : cgraph F V) : Prop := {
  st_ids : NoDup (map cl_id (g_cl g));
  st_edge : forall i j S, sepf i j = Some S ->
    i < length (g_cl g) /\ j < length (g_cl g) /\ i <> j /\ S <> [] /\ sepf j i = Some S /\
    exists k p, nth_error (g_paths g) k = Some p /\ p_snd p = i /\ p_rcv p = j;
  st_path : forall k p, nth_error (g_paths g) k = Some p -> exists S, sepf (p_snd p) (p_rcv p) = Some S;
  st_pair : forall k k' p p', nth_error (g_paths g) k = Some p -> nth_error (g_paths g) k' = Some p' ->
    p_snd p = p_snd p' -> p_rcv p = p_rcv p' -> k = k';
  st_sep : forall i j ci cj, nth_error (g_cl g) i = Some ci -> nth_error (g_cl g) j = Some cj ->
    dget (cl_seps ci) (cl_id cj) = sepf i j;
  st_out : forall i ci, nth_error (g_cl g) i = Some ci ->
    NoDup (cl_out ci) /\ forall k, In k (cl_out ci) <-> exists p, nth_error (g_paths g) k = Some p /\ p_snd p = i;
  st_order : Permutation (g_order g) (seq 0 (length (g_paths g))) }.

Lemma struct_ok_ext f f' g : (forall i j, f i j = f' i j) -> struct_ok f g -> struct_ok f' g.
Proof.
  intros E [H1 H2 H3 H4 H5 H6 H7]. split; auto.
  - intros i j S. rewrite <- !E. apply H2.
  - intros k p Hp. destruct (H3 k p Hp) as (S & HS). exists S. now rewrite <- E.
  - intros i j ci cj Hi Hj. rewrite <- E. now apply H5.
Qed.

(** The message waiting on every path is the one its sender would compute now. *)
Definition fresh (g : cgraph F V) : Prop :=
  forall k p ci cj, nth_error (g_paths g) k = Some p ->
    nth_error (g_cl g) (p_snd p) = Some ci -> nth_error (g_cl g) (p_rcv p) = Some cj ->
    make_message ops ci (cl_id cj) = Ok (p_next p).

(** ** Construction *)
Definition edge_of (d : dict (nat * nat) (list string)) (i j : nat) : option (list string) :=
  if Nat.ltb i j then dget d (i, j) else if Nat.ltb j i then dget d (j, i) else None.
Definition sepf_done (d : dict (nat * nat) (list string)) (D : list (nat * nat)) (i j : nat) : option (list string) :=
  if mem (Nat.min i j, Nat.max i j) D then edge_of d i j else None.

Definition core (c : cluster F V) : F * string * dict string V := (cl_fac c, cl_id c, cl_spec c).

Record build_ok (d : dict (nat * nat) (list string)) (cls0 : list (cluster F V)) (special : dict string V)
    (D : list (nat * nat)) (g : cgraph F V) : Prop := {
  bo_struct : struct_ok (sepf_done d D) g;
  bo_fresh : fresh g;
  bo_core : map core (g_cl g) = map core cls0;
  bo_recv : forall i ci, nth_error (g_cl g) i = Some ci -> cl_recv ci = [];
  bo_path : forall k p, nth_error (g_paths g) k = Some p ->
     p_prev p = None /\ info_gain ops None (p_next p) = Ok (p_gain p);
  bo_order : g_order g = seq 0 (length (g_paths g));
  bo_ends : map (fun p => (p_snd p, p_rcv p)) (g_paths g) =
     flat_map (fun e => match dget d e with Some _ => [(fst e, snd e); (snd e, fst e)] | None => [] end) D;
  bo_spec : g_spec g = special;
  bo_passed : g_passed g = 0;
  bo_dists : g_dists g = [] }.

Lemma edge_of_sym d i j : edge_of d i j = edge_of d j i.
Proof.
  unfold edge_of. destruct (Nat.ltb i j) eqn:E1, (Nat.ltb j i) eqn:E2; auto.
  apply Nat.ltb_lt in E1, E2. lia.
Qed.
Lemma sepf_done_sym d D i j : sepf_done d D i j = sepf_done d D j i.
Proof. unfold sepf_done. rewrite (Nat.min_comm j i), (Nat.max_comm j i), (edge_of_sym d j i). reflexivity. Qed.

Lemma mem_app {A} {E : EqDec A} (x : A) l m : mem x (l ++ m) = mem x l || mem x m.
Proof. apply eq_true_iff_eq. rewrite orb_true_iff, !mem_In, in_app_iff. tauto. Qed.

Lemma sepf_done_snoc d D i j a b : i < j ->
  sepf_done d (D ++ [(i, j)]) a b =
  if (Nat.eqb a i && Nat.eqb b j) || (Nat.eqb a j && Nat.eqb b i) then dget d (i, j) else sepf_done d D a b.
Proof.
  intros Hij. unfold sepf_done. rewrite mem_app. cbn [mem].
  destruct (Nat.eqb a i && Nat.eqb b j) eqn:E1; cbn [orb].
  { apply andb_true_iff in E1. rewrite !Nat.eqb_eq in E1. destruct E1; subst.
    rewrite Nat.min_l, Nat.max_r by lia. unfold edge_of. rewrite (proj2 (Nat.ltb_lt i j) Hij).
    destruct (eq_dec (i, j) (i, j)); [|congruence]. now rewrite orb_true_r. }
  destruct (Nat.eqb a j && Nat.eqb b i) eqn:E2.
  { apply andb_true_iff in E2. rewrite !Nat.eqb_eq in E2. destruct E2; subst.
    rewrite Nat.min_r, Nat.max_l by lia. unfold edge_of. rewrite (proj2 (Nat.ltb_lt i j) Hij).
    destruct (Nat.ltb j i) eqn:E3; [apply Nat.ltb_lt in E3; lia|].
    destruct (eq_dec (i, j) (i, j)); [|congruence]. now rewrite orb_true_r. }
  destruct (eq_dec (Nat.min a b, Nat.max a b) (i, j)) as [E|N]; [|now rewrite orb_false_r].
  exfalso. inversion E. rewrite !andb_false_iff, !Nat.eqb_neq in *. lia.
Qed.

Lemma core_length d cls0 sp D g : build_ok d cls0 sp D g -> length (g_cl g) = length cls0.
Proof. intros H. rewrite <- (map_length core), (bo_core _ _ _ _ _ H). apply map_length. Qed.

Lemma link_pair_ok d cls0 special D g g' i j : i < j -> j < length cls0 -> ~ In (i, j) D ->
  build_ok d cls0 special D g -> link_pair ops d g (i, j) = Ok g' -> build_ok d cls0 special (D ++ [(i, j)]) g'.
Proof.
  intros Hij Hjn HD B H. pose proof (core_length _ _ _ _ _ B) as Hlen.
  destruct B as [ST B2 B3 B4 B5 B6 B7 B8 B9 B10]. unfold link_pair in H.
  destruct (dget d (i, j)) as [sepset|] eqn:Ed.
  2:{ inversion H; subst g'. split; auto.
      - eapply struct_ok_ext; [|exact ST]. intros a b. rewrite sepf_done_snoc by exact Hij.
        destruct ((Nat.eqb a i && Nat.eqb b j) || (Nat.eqb a j && Nat.eqb b i)) eqn:E; [|reflexivity].
        rewrite Ed. unfold sepf_done. destruct (mem _ D); [|reflexivity].
        apply orb_true_iff in E. rewrite !andb_true_iff, !Nat.eqb_eq in E.
        destruct E as [[-> ->]|[-> ->]]; [|rewrite edge_of_sym]; unfold edge_of; now rewrite (proj2 (Nat.ltb_lt i j) Hij).
      - rewrite B7, flat_map_app. cbn. rewrite Ed. cbn. now rewrite app_nil_r. }
  apply bind_ok in H. destruct H as (u & Hu & H). unfold py_assert in Hu.
  destruct (Nat.ltb 0 (length sepset)) eqn:Hsep; [|discriminate].
  apply bind_ok in H. destruct H as (ci & Hci & H). apply bind_ok in H. destruct H as (cj & Hcj & H).
  apply py_nth_inv in Hci, Hcj.
  apply bind_ok in H. destruct H as (ci1 & Hci1 & H). apply bind_ok in H. destruct H as (cj1 & Hcj1 & H).
  unfold add_neighbour in Hci1, Hcj1. rewrite Hsep in Hci1, Hcj1. cbn [py_assert bind] in Hci1, Hcj1.
  inversion Hci1; subst ci1; clear Hci1. inversion Hcj1; subst cj1; clear Hcj1.
  apply bind_ok in H. destruct H as (pij & Hpij & H). apply bind_ok in H. destruct H as (pji & Hpji & H).
  apply bind_ok in H. destruct H as (l1 & Hl1 & H). apply bind_ok in H. destruct H as (l2 & Hl2 & H).
  inversion H; subst g'; clear H.
  unfold new_path in Hpij, Hpji.
  apply bind_ok in Hpij. destruct Hpij as (mij & Hmij & Hpij). apply bind_ok in Hpij. destruct Hpij as (gij & Hgij & Hpij).
  inversion Hpij; subst pij; clear Hpij.
  apply bind_ok in Hpji. destruct Hpji as (mji & Hmji & Hpji). apply bind_ok in Hpji. destruct Hpji as (gji & Hgji & Hpji).
  inversion Hpji; subst pji; clear Hpji.
  cbn [cl_id add_out] in *.
  set (ci2 := {| cl_fac := cl_fac ci; cl_id := cl_id ci; cl_seps := dset (cl_seps ci) (cl_id cj) sepset;
                 cl_recv := cl_recv ci; cl_out := cl_out ci; cl_spec := cl_spec ci |}) in *.
  set (cj2 := {| cl_fac := cl_fac cj; cl_id := cl_id cj; cl_seps := dset (cl_seps cj) (cl_id ci) sepset;
                 cl_recv := cl_recv cj; cl_out := cl_out cj; cl_spec := cl_spec cj |}) in *.
  set (k := length (g_paths g)) in *.
  apply list_set_inv in Hl1. destruct Hl1 as (_ & Hl1 & Hn1).
  apply list_set_inv in Hl2. destruct Hl2 as (_ & Hl2 & Hn2).
  assert (Hnth : forall a, nth_error l2 a = if Nat.eq_dec a j then Some (add_out cj2 (1 + k)) else
            if Nat.eq_dec a i then Some (add_out ci2 k) else nth_error (g_cl g) a).
  { intros a. rewrite Hn2. destruct (Nat.eq_dec a j); [reflexivity|]. now rewrite Hn1. }
  assert (Hids : forall a ca, nth_error l2 a = Some ca -> exists ca0, nth_error (g_cl g) a = Some ca0 /\
            cl_id ca = cl_id ca0 /\ cl_fac ca = cl_fac ca0 /\ cl_recv ca = cl_recv ca0 /\ cl_spec ca = cl_spec ca0).
  { intros a ca Ha. rewrite Hnth in Ha. destruct (Nat.eq_dec a j) as [->|].
    - inversion Ha; subst. exists cj. cbn. repeat split; auto.
    - destruct (Nat.eq_dec a i) as [->|]; [inversion Ha; subst; exists ci; cbn; repeat split; auto|]. exists ca. auto 8. }
  assert (Hmapf : forall (X : Type) (f : cluster F V -> X), (forall a c0 c, nth_error (g_cl g) a = Some c0 -> nth_error l2 a = Some c -> f c = f c0) ->
            map f l2 = map f (g_cl g)).
  { intros X f Hf. apply nth_error_ext. intros a. rewrite !nth_error_map.
    destruct (nth_error l2 a) as [ca|] eqn:E.
    - destruct (Hids a ca E) as (ca0 & E0 & _). rewrite E0. cbn. f_equal. eapply Hf; eauto.
    - assert (nth_error (g_cl g) a = None) as ->; [|reflexivity]. apply nth_error_None in E. apply nth_error_None. lia. }
  assert (Eid : map cl_id l2 = map cl_id (g_cl g)).
  { apply Hmapf. intros a c0 c H0 H1. destruct (Hids a c H1) as (c0' & H0' & ? & _). congruence. }
  assert (Ecore : map core l2 = map core (g_cl g)).
  { apply Hmapf. intros a c0 c H0 H1. destruct (Hids a c H1) as (c0' & H0' & E1 & E2 & E3 & E4). unfold core. congruence. }
  assert (Hseps : forall a b ca cb, nth_error l2 a = Some ca -> nth_error l2 b = Some cb ->
            dget (cl_seps ca) (cl_id cb) = sepf_done d (D ++ [(i, j)]) a b).
  { intros a b ca cb Ha Hb. rewrite sepf_done_snoc by exact Hij.
    destruct (Hids b cb Hb) as (cb0 & Hb0 & -> & _).
    assert (Hbj : cl_id cb0 = cl_id cj <-> b = j).
    { split; [|intros ->; congruence]. intros E. eapply ids_inj; [apply (st_ids _ _ ST)|exact Hb0|exact Hcj|exact E]. }
    assert (Hbi : cl_id cb0 = cl_id ci <-> b = i).
    { split; [|intros ->; congruence]. intros E. eapply ids_inj; [apply (st_ids _ _ ST)|exact Hb0|exact Hci|exact E]. }
    rewrite Hnth in Ha. destruct (Nat.eq_dec a j) as [->|Naj].
    - inversion Ha; subst ca. cbn [add_out cl_seps cj2].
      rewrite (proj2 (Nat.eqb_neq j i)) by lia. rewrite Nat.eqb_refl. cbn [andb orb].
      destruct (Nat.eqb b i) eqn:Eb.
      + apply Nat.eqb_eq in Eb. rewrite (proj2 Hbi Eb), dget_dset_eq. now rewrite Ed.
      + apply Nat.eqb_neq in Eb. rewrite dget_dset_ne by tauto. eapply st_sep; eauto.
    - destruct (Nat.eq_dec a i) as [->|Nai].
      + inversion Ha; subst ca. cbn [add_out cl_seps ci2].
        rewrite Nat.eqb_refl. rewrite (proj2 (Nat.eqb_neq i j)) by lia. cbn [andb orb]. rewrite orb_false_r.
        destruct (Nat.eqb b j) eqn:Eb.
        * apply Nat.eqb_eq in Eb. rewrite (proj2 Hbj Eb), dget_dset_eq. now rewrite Ed.
        * apply Nat.eqb_neq in Eb. rewrite dget_dset_ne by tauto. eapply st_sep; eauto.
      + rewrite (proj2 (Nat.eqb_neq a i)), (proj2 (Nat.eqb_neq a j)) by assumption. cbn [andb orb]. eapply st_sep; eauto. }
  assert (Hpaths : forall q p, nth_error (g_paths g ++ [{| p_snd := i; p_rcv := j; p_prev := None; p_next := mij; p_gain := gij |};
                                {| p_snd := j; p_rcv := i; p_prev := None; p_next := mji; p_gain := gji |}]) q = Some p <->
            nth_error (g_paths g) q = Some p \/
            (q = k /\ p = {| p_snd := i; p_rcv := j; p_prev := None; p_next := mij; p_gain := gij |}) \/
            (q = 1 + k /\ p = {| p_snd := j; p_rcv := i; p_prev := None; p_next := mji; p_gain := gji |})).
  { intros q p. destruct (lt_dec q k) as [Hq|Hq].
    - rewrite nth_error_app1 by exact Hq. split; [tauto|]. intros [?|[[? _]|[? _]]]; [assumption|lia|lia].
    - rewrite nth_error_app2 by (fold k; lia). fold k.
      assert (Hnone : nth_error (g_paths g) q = None) by (apply nth_error_None; fold k; lia).
      rewrite Hnone. destruct (q - k) as [|[|m]] eqn:Em; cbn.
      + split; [intros E; inversion E; right; left; split; [lia|reflexivity]|].
        intros [?|[[? ->]|[? _]]]; [discriminate|reflexivity|lia].
      + split; [intros E; inversion E; right; right; split; [lia|reflexivity]|].
        intros [?|[[? _]|[? ->]]]; [discriminate|lia|reflexivity].
      + assert (nth_error (@nil (path F)) m = None) as -> by (now destruct m).
        split; [discriminate|]. intros [?|[[? _]|[? _]]]; [discriminate|lia|lia]. }
  assert (Hold : forall q p, nth_error (g_paths g) q = Some p -> ~ (p_snd p = i /\ p_rcv p = j) /\ ~ (p_snd p = j /\ p_rcv p = i)).
  { intros q p Hp. destruct (st_path _ _ ST q p Hp) as (S0 & HS0).
    assert (Hz : sepf_done d D i j = None).
    { unfold sepf_done. rewrite Nat.min_l, Nat.max_r by lia. apply mem_nIn in HD. now rewrite HD. }
    split; intros [E1 E2]; rewrite E1, E2 in HS0; [|rewrite sepf_done_sym in HS0]; congruence. }
  cbn [Nat.add] in *.
  split; cbn [g_cl g_paths g_order g_spec g_passed g_dists]; auto.
  - (* structure *)
    split; cbn [g_cl g_paths g_order].
    + rewrite Eid. apply (st_ids _ _ ST).
    + intros a b S0 HS. rewrite sepf_done_snoc in HS by exact Hij.
      destruct ((Nat.eqb a i && Nat.eqb b j) || (Nat.eqb a j && Nat.eqb b i)) eqn:E.
      * rewrite Ed in HS. inversion HS; subst S0.
        assert (Hne : sepset <> []) by (intros ->; discriminate).
        apply orb_true_iff in E. rewrite !andb_true_iff, !Nat.eqb_eq in E. destruct E as [[-> ->]|[-> ->]].
        -- repeat split; try lia; auto.
           ++ rewrite sepf_done_snoc by exact Hij. rewrite !Nat.eqb_refl. cbn. rewrite orb_true_r. exact Ed.
           ++ eexists k, _. split; [apply Hpaths; right; left; split; reflexivity|]. split; reflexivity.
        -- repeat split; try lia; auto.
           ++ rewrite sepf_done_snoc by exact Hij. rewrite !Nat.eqb_refl. cbn. exact Ed.
           ++ eexists (S k), _. split; [apply Hpaths; right; right; split; reflexivity|]. split; reflexivity.
      * destruct (st_edge _ _ ST a b S0 HS) as (H1 & H2 & H3 & H4 & H5 & q & p & H6 & H7).
        repeat split; try lia; auto.
        -- rewrite sepf_done_snoc by exact Hij. rewrite orb_comm.
           rewrite (andb_comm (Nat.eqb b j)), (andb_comm (Nat.eqb b i)), E. exact H5.
        -- exists q, p. split; [apply Hpaths; left; exact H6|exact H7].
    + intros q p Hp. apply Hpaths in Hp. destruct Hp as [Hp|[[_ ->]|[_ ->]]]; cbn [p_snd p_rcv].
      * destruct (st_path _ _ ST q p Hp) as (S0 & HS0). exists S0. rewrite sepf_done_snoc by exact Hij.
        destruct (Hold q p Hp) as [N1 N2].
        destruct ((Nat.eqb (p_snd p) i && Nat.eqb (p_rcv p) j) || (Nat.eqb (p_snd p) j && Nat.eqb (p_rcv p) i)) eqn:E; [|exact HS0].
        exfalso. apply orb_true_iff in E. rewrite !andb_true_iff, !Nat.eqb_eq in E. tauto.
      * exists sepset. rewrite sepf_done_snoc by exact Hij. rewrite !Nat.eqb_refl. exact Ed.
      * exists sepset. rewrite sepf_done_snoc by exact Hij. rewrite !Nat.eqb_refl. rewrite orb_true_r. exact Ed.
    + intros q q' p p' Hp Hp' E1 E2. apply Hpaths in Hp, Hp'.
      destruct Hp as [Hp|[[-> ->]|[-> ->]]], Hp' as [Hp'|[[-> ->]|[-> ->]]]; cbn [p_snd p_rcv] in *; try lia.
      * eapply (st_pair _ _ ST); eauto.
      * exfalso. destruct (Hold q p Hp). tauto.
      * exfalso. destruct (Hold q p Hp). tauto.
      * exfalso. destruct (Hold q' p' Hp') as [N1 N2]. first [apply N1; split; congruence | apply N2; split; congruence].
      * exfalso. destruct (Hold q' p' Hp') as [N1 N2]. first [apply N1; split; congruence | apply N2; split; congruence].
    + exact Hseps.
    + intros a ca Ha. rewrite Hnth in Ha.
      assert (Hk : forall a c, nth_error (g_cl g) a = Some c -> ~ In k (cl_out c) /\ ~ In (S k) (cl_out c)).
      { intros a' c Hc. destruct (st_out _ _ ST a' c Hc) as [_ Ho]. split; intros C; apply Ho in C; destruct C as (p & Hp & _);
          assert (nth_error (g_paths g) k <> None \/ nth_error (g_paths g) (S k) <> None) as [C|C] by (left; congruence) || (right; congruence);
          apply C; apply nth_error_None; fold k; lia. }
      destruct (Nat.eq_dec a j) as [->|Naj]; [|destruct (Nat.eq_dec a i) as [->|Nai]].
      * inversion Ha; subst ca. cbn [add_out cl_out cj2]. destruct (st_out _ _ ST j cj Hcj) as [Hnd Ho]. split.
        -- apply NoDup_app_intro; [exact Hnd|repeat constructor; tauto|]. intros x Hx [<-|[]]. exact (proj2 (Hk j cj Hcj) Hx).
        -- intros q. rewrite in_app_iff, Ho. cbn [In]. split.
           ++ intros [(p & Hp & Es)|[<-|[]]].
              ** exists p. split; [apply Hpaths; tauto|exact Es].
              ** eexists. split; [apply Hpaths; right; right; split; reflexivity|reflexivity].
           ++ intros (p & Hp & Es). apply Hpaths in Hp. destruct Hp as [Hp|[[-> ->]|[-> ->]]]; cbn [p_snd] in Es; [left; eauto|lia|tauto].
      * inversion Ha; subst ca. cbn [add_out cl_out ci2]. destruct (st_out _ _ ST i ci Hci) as [Hnd Ho]. split.
        -- apply NoDup_app_intro; [exact Hnd|repeat constructor; tauto|]. intros x Hx [<-|[]]. exact (proj1 (Hk i ci Hci) Hx).
        -- intros q. rewrite in_app_iff, Ho. cbn [In]. split.
           ++ intros [(p & Hp & Es)|[<-|[]]].
              ** exists p. split; [apply Hpaths; tauto|exact Es].
              ** eexists. split; [apply Hpaths; right; left; split; reflexivity|reflexivity].
           ++ intros (p & Hp & Es). apply Hpaths in Hp. destruct Hp as [Hp|[[-> ->]|[-> ->]]]; cbn [p_snd] in Es; [left; eauto|tauto|lia].
      * destruct (st_out _ _ ST a ca Ha) as [Hnd Ho]. split; [exact Hnd|]. intros q. rewrite Ho. split.
        -- intros (p & Hp & Es). exists p. split; [apply Hpaths; tauto|exact Es].
        -- intros (p & Hp & Es). apply Hpaths in Hp. destruct Hp as [Hp|[[-> ->]|[-> ->]]]; cbn [p_snd] in Es; [eauto|lia|lia].
    + rewrite B6. rewrite app_length. cbn [length]. fold k. rewrite seq_app. cbn [seq Nat.add]. reflexivity.
  - (* fresh *)
    intros q p ca cb Hp Ha Hb. apply Hpaths in Hp. destruct Hp as [Hp|[[-> ->]|[-> ->]]]; cbn [p_snd p_rcv p_next] in *.
    + destruct (Hids _ ca Ha) as (ca0 & Ha0 & I1 & I2 & I3 & I4), (Hids _ cb Hb) as (cb0 & Hb0 & J1 & _).
      rewrite <- (B2 q p ca0 cb0 Hp Ha0 Hb0). rewrite J1. apply make_message_ext; auto.
      rewrite (st_sep _ _ ST _ _ _ _ Ha0 Hb0). rewrite <- J1. rewrite (Hseps _ _ _ _ Ha Hb).
      rewrite sepf_done_snoc by exact Hij. destruct (Hold q p Hp) as [N1 N2].
      destruct ((Nat.eqb (p_snd p) i && Nat.eqb (p_rcv p) j) || (Nat.eqb (p_snd p) j && Nat.eqb (p_rcv p) i)) eqn:E; [|reflexivity].
      exfalso. apply orb_true_iff in E. rewrite !andb_true_iff, !Nat.eqb_eq in E. tauto.
    + rewrite Hnth in Ha, Hb. destruct (Nat.eq_dec i j); [lia|]. destruct (Nat.eq_dec i i); [|congruence].
      destruct (Nat.eq_dec j j); [|congruence]. inversion Ha; inversion Hb; subst ca cb. cbn [cl_id add_out cj2].
      rewrite <- Hmij. apply make_message_ext; reflexivity.
    + rewrite Hnth in Ha, Hb. destruct (Nat.eq_dec i j); [lia|]. destruct (Nat.eq_dec i i); [|congruence].
      destruct (Nat.eq_dec j j); [|congruence]. inversion Ha; inversion Hb; subst ca cb. cbn [cl_id add_out ci2].
      rewrite <- Hmji. apply make_message_ext; reflexivity.
  - rewrite Ecore. exact B3.
  - intros a ca Ha. destruct (Hids a ca Ha) as (ca0 & Ha0 & _ & _ & -> & _). eapply B4; eauto.
  - intros q p Hp. apply Hpaths in Hp. destruct Hp as [Hp|[[-> ->]|[-> ->]]]; cbn; [eapply B5; eauto|auto|auto].
  - rewrite B6, app_length. cbn [length]. fold k. rewrite seq_app. cbn [seq Nat.add]. reflexivity.
  - rewrite map_app, B7, flat_map_app. cbn. now rewrite Ed.
Qed.

Lemma link_fold d cls0 special : forall l D g g',
  (forall i j, In (i, j) l -> i < j /\ j < length cls0) -> NoDup (D ++ l) ->
  build_ok d cls0 special D g -> foldM (link_pair ops d) l g = Ok g' -> build_ok d cls0 special (D ++ l) g'.
Proof.
  induction l as [|[i j] l IH]; intros D g g' Hl Hn B H; cbn [foldM] in H.
  - inversion H; subst. now rewrite app_nil_r.
  - apply bind_ok in H. destruct H as (g1 & H1 & H).
    assert (E : D ++ (i, j) :: l = (D ++ [(i, j)]) ++ l) by (now rewrite <- app_assoc).
    rewrite E in *. apply (IH _ g1); auto; [intros; apply Hl; right; assumption|].
    destruct (Hl i j (or_introl eq_refl)) as [Hij Hj].
    eapply link_pair_ok; eauto. intros C. apply NoDup_app_elim in Hn. destruct Hn as (Hn & _).
    apply NoDup_app_elim in Hn. destruct Hn as (_ & _ & Hd). apply (Hd (i, j)); [exact C|left; reflexivity].
Qed.

Lemma build_start d (cls : list (cluster F V)) special : NoDup (map cl_id cls) ->
  (forall c, In c cls -> cl_seps c = [] /\ cl_recv c = [] /\ cl_out c = []) ->
  build_ok d cls special [] {| g_cl := cls; g_paths := []; g_order := []; g_spec := special; g_passed := 0; g_dists := [] |}.
Proof.
  intros Hn Hc. split; cbn; auto.
  - split; cbn; auto.
    + intros i j S H. discriminate.
    + intros k p H. destruct k; discriminate.
    + intros k k' p p' H. destruct k; discriminate.
    + intros i j ci cj Hi Hj. apply nth_error_In in Hi. destruct (Hc ci Hi) as (-> & _). reflexivity.
    + intros i ci Hi. apply nth_error_In in Hi. destruct (Hc ci Hi) as (_ & _ & ->). split; [constructor|].
      intros k. split; [intros []|]. intros (p & Hp & _). destruct k; discriminate.
  - intros k p ci cj H. destruct k; discriminate.
  - intros i ci Hi. apply nth_error_In in Hi. apply Hc; exact Hi.
  - intros k p H. destruct k; discriminate.
Qed.
End Build.
