(** Three tables in a loop whose rows and columns add up to one: nothing to send. *)
From Verif Require Export GraphLocal GraphExamples3.
Local Open Scope string_scope.
Local Open Scope nat_scope.

Definition lp (x y : string) : sparse :=
  {| svars := [x; y]; scards := [2; 2];
     stbl := [([0; 0], Fin (ln (1/4))); ([0; 1], Fin (ln (3/4))); ([1; 0], Fin (ln (3/4))); ([1; 1], Fin (ln (1/4)))]; sdef := NInf |}.
Definition lp_loop : list sparse := [lp "a" "b"; lp "b" "c"; lp "c" "a"].
Lemma lp_good : forall f, In f lp_loop -> sgood two f.
Proof. intros f [<-|[<-|[<-|[]]]]; solve_sgood. Qed.
Lemma lp_nonzero e : (forall v, e v < 2) -> forall f, In f lp_loop -> spot f e <> 0%R.
Proof.
  intros He f H. assert (G : forall x, pot (Fin x) <> 0%R) by (intros x; cbn; pose proof (exp_pos x); lra).
  pose proof (He "a"). pose proof (He "b"). pose proof (He "c").
  destruct H as [<-|[<-|[<-|[]]]]; unfold spot, sval; cbn [svars map lp];
    destruct (e "a") as [|[|]], (e "b") as [|[|]], (e "c") as [|[|]]; try lia; cbn; apply G.
Qed.
Lemma lp_rows x y (e : env) : x <> y -> e y < 2 -> sum_over two [x] (spot (lp x y)) e = 1%R.
Proof.
  intros N He. unfold sum_over, two, Rsum. cbn [seq map fold_right]. unfold spot, sval. cbn [svars lp map]. unfold upd.
  destruct (string_dec x x) as [_|C]; [|congruence]. destruct (string_dec y x) as [C|_]; [congruence|].
  destruct (e y) as [|[|]]; try lia; cbn; rewrite !exp_ln by lra; lra.
Qed.
Lemma lp_cols x y (e : env) : x <> y -> e x < 2 -> sum_over two [y] (spot (lp x y)) e = 1%R.
Proof.
  intros N He. unfold sum_over, two, Rsum. cbn [seq map fold_right]. unfold spot, sval. cbn [svars lp map]. unfold upd.
  destruct (string_dec y y) as [_|C]; [|congruence]. destruct (string_dec x y) as [C|_]; [congruence|].
  destruct (e x) as [|[|]]; try lia; cbn; rewrite !exp_ln by lra; lra.
Qed.

Lemma lp_loop_quiet : exists g res, mk_graph (sparse_ops id_oracle) id_oracle lp_loop None [] = Ok g /\
  length (g_cl g) = 3 /\ cycle (linked g) [0; 1; 2] /\ edge_with g 0 1 ["b"] /\
  nothing_to_send (sparse_ops id_oracle) two spot g /\ get_marginal (sparse_ops id_oracle) g ["a"] = Ok res.
Proof.
  pose (L := sparse_lawful two id_oracle id_oracle_ok).
  assert (HP : has_positive spot lp_loop None [] zero_env).
  { split; [exact I|]. split; [intros v x H; discriminate|]. apply lp_nonzero. intros v; unfold zero_env; lia. }
  destruct (mk_graph_some _ two (sgood two) spot L id_oracle lp_loop None [] zero_env id_oracle_ok lp_good HP) as (g & Hmk).
  destruct (mk_graph_made _ id_oracle lp_loop None [] g id_oracle_ok Hmk) as (reduced & final & M).
  assert (Ef : final = lp_loop).
  { pose proof (mk_reduced _ _ _ _ _ _ _ _ M) as E1. pose proof (mk_final _ _ _ _ _ _ _ _ M) as E2.
    cbn in E1. inversion E1; subst reduced. cbv -[ln Rdiv IZR] in E2. now inversion E2. }
  subst final. pose proof (made_facs _ _ _ _ _ _ _ _ M) as Efac.
  destruct (history_live _ two (sgood two) spot L id_oracle lp_loop None [] g id_oracle_ok lp_good reduced lp_loop g M (hi_init _ _)) as [Gfin LV].
  pose proof (lv_inv _ _ _ _ _ _ _ _ LV) as IV. pose proof (mk_struct _ _ _ _ _ _ _ _ M) as SO.
  assert (Hl : length (g_cl g) = 3) by exact (iv_len _ _ _ _ _ _ _ _ IV).
  assert (HL : forall i j s, graph_sep id_oracle (map svars lp_loop) (all_evidence (V := nat) None []) i j = Some s -> linked g i j).
  { intros i j s Hs. destruct (st_edge _ _ SO i j s Hs) as (_ & _ & _ & _ & _ & k & p & HH). exists k, p. exact HH. }
  assert (Hc : forall x y, In (x, y) [(0, 1); (1, 2); (2, 0)] -> linked g x y).
  { intros x y [H|[H|[H|[]]]]; inversion H; subst; eapply HL; vm_compute; reflexivity. }
  destruct (marginal_some _ two (sgood two) spot L id_oracle lp_loop None [] g id_oracle_ok lp_good Hmk g ["a"] zero_env (hi_init _ _) HP) as (res & Hres).
  { repeat constructor. intros []. }
  { intros v _ []. }
  { destruct (nth_error (g_cl g) 0) as [c|] eqn:Ec.
    - exists c. split; [eapply nth_error_In; eauto|].
      assert (X : nth_error (map cl_fac (g_cl g)) 0 = Some (cl_fac c)) by (rewrite nth_error_map, Ec; reflexivity).
      rewrite Efac in X. injection X as <-. intros v [<-|[]]. cbn. tauto.
    - exfalso. apply nth_error_None in Ec. lia. }
  exists g, res. split; [exact Hmk|]. split; [exact Hl|]. split; [|split; [|split; [|exact Hres]]].
  - split; [cbn; lia|]. split; [repeat constructor; cbn; intuition discriminate|]. split.
    + intros [|[|[|a]]] x y H1 H2; cbn in H1, H2; inversion H1; inversion H2; subst; apply Hc; cbn; tauto.
    + intros x y H1 H2. cbn in H1, H2. inversion H1; inversion H2; subst. apply Hc; cbn; tauto.
  - apply (made_edge _ id_oracle lp_loop None [] reduced lp_loop g M). vm_compute. reflexivity.
  - intros k p e Hp He.
    destruct (next_ok _ two (sgood two) spot L id_oracle lp_loop None [] id_oracle_ok Gfin g k p IV (mk_fresh _ _ _ _ _ _ _ _ M) Hp)
      as (S & ci & cj & q & kq & HS & Hi & Hj & Hq & Q1 & Q2 & MO).
    destruct (mo_fac _ _ _ _ _ _ _ _ _ _ MO) as [_ HV]. pose proof (mo_mul _ _ _ _ _ _ _ _ _ _ MO e) as Hm.
    rewrite (proj1 (mk_path _ _ _ _ _ _ _ _ M k p Hp)).
    unfold pm in Hm. rewrite (proj1 (mk_path _ _ _ _ _ _ _ _ M kq q Hq)), Rmult_1_r in Hm. rewrite Hm. unfold belief.
    rewrite (sum_over_ext_g two _ _ (spot (cl_fac ci))).
    2:{ intros e1. f_equal. }
    assert (X : nth_error lp_loop (p_snd p) = Some (cl_fac ci)).
    { rewrite <- Efac, nth_error_map, Hi. reflexivity. }
    assert (R : p_snd p < 3 /\ p_rcv p < 3) by (split; rewrite <- Hl; apply nth_error_Some; congruence).
    assert (HeS : forall v, In v S -> e v < 2) by (intros v Hv; apply (He v); now apply HV).
    assert (C : exists x y, x <> y /\ cl_fac ci = lp x y /\
        ((summed (sparse_ops id_oracle) [] ci S = [x] /\ In y S) \/ (summed (sparse_ops id_oracle) [] ci S = [y] /\ In x S))).
    { assert (Y : exists x y, In (p_snd p, (x, y)) [(0, ("a", "b")); (1, ("b", "c")); (2, ("c", "a"))] /\ cl_fac ci = lp x y).
      { destruct (p_snd p) as [|[|[|i]]]; try lia; do 2 eexists; (split; [cbn; tauto|]);
          cbn [nth_error lp_loop] in X; exact (eq_sym (f_equal (fun u => match u with Some z => z | None => lp "" "" end) X)). }
      destruct Y as (x & y & HI & EY). exists x, y. unfold summed. rewrite EY. change (f_vars (sparse_ops id_oracle) (lp x y)) with [x; y]. split; [|split; [reflexivity|]]; clear EY X MO HP LV IV SO M Hmk Hm Hres Hi Hj Hq HV Efac;
      destruct (p_snd p) as [|[|[|i]]]; try lia; destruct (p_rcv p) as [|[|[|j]]]; try lia;
        vm_compute in HS; try discriminate; injection HS as <-;
        destruct HI as [HI|[HI|[HI|[]]]]; try discriminate; injection HI as <- <-;
        try discriminate; vm_compute; tauto. }
    destruct C as (x & y & N & EY & [[-> Hin]|[-> Hin]]); rewrite EY.
    + apply lp_rows; [exact N|now apply HeS].
    + apply lp_cols; [exact N|now apply HeS].
Qed.
