(** Two variables of equal cardinalities, asked for in the other order than the table lists them:
    the answer is the right table with the two names exchanged. *)
From Verif Require Export DenseQueryEx.
Local Open Scope string_scope.
Local Open Scope nat_scope.
Local Open Scope list_scope.

(** [e] with the values of [x] and [y] exchanged. *)
Definition exchanged (x y : string) (e : env) : env := fun v => if string_dec v x then e y else if string_dec v y then e x else e v.

Lemma flipped_same o f x y r : wf_dense r -> x <> y -> d_marginalize o f [x; y] true = Ok r -> d_card_of r x = d_card_of r y ->
  exists r', d_marginalize o f [y; x] true = Ok r' /\ dvars r' = [y; x] /\ dtens r' = dtens r.
Proof.
  intros Wr N H Nc. unfold d_marginalize, d_marginal_vars in *.
  assert (Ef : filter (fun v => negb (mem v [y; x])) (dvars f) = filter (fun v => negb (mem v [x; y])) (dvars f)).
  { apply filter_ext. intros v. f_equal. apply eq_true_iff_eq. rewrite !mem_In. cbn. tauto. }
  rewrite Ef. apply bind_ok in H. destruct H as (idx & E1 & H). rewrite E1. cbn [bind]. apply bind_ok in H. destruct H as (t & E2 & H). rewrite E2. cbn [bind].
  unfold names_of in *. cbn [mapM] in *. apply bind_ok in H. destruct H as (ns & E3 & H). apply bind_ok in E3. destruct E3 as (nx & Ex & E3). apply bind_ok in E3. destruct E3 as (l & E3 & El).
  apply bind_ok in E3. destruct E3 as (ny & Ey & E3). cbn [bind] in E3. injection E3 as <-. injection El as <-. rewrite Ex, Ey. cbn [bind].
  unfold mk_dense in *. assert (N2 : nodupb [y; x] = true) by (apply nodupb_iff; constructor; [intros [C|[]]; congruence|constructor; [intros []|constructor]]).
  rewrite N2. cbn [negb raise_if bind]. apply bind_ok in H. destruct H as (u1 & _ & H). cbn [bind] in H. apply bind_ok in H. destruct H as (u2 & Hd & H).
  apply bind_ok in H. destruct H as (d & En & H). injection H as <-. change (length [y; x]) with (length [x; y]). rewrite Hd. cbn [bind].
  unfold ndim in Hd. destruct (tshape (squeeze t)) as [|a [|b [|c sh]]] eqn:Es; try discriminate Hd. cbn [mk_names] in *. unfold names_given in *. cbn in En |- *.
  destruct (py_assert (a =? length (dedup nx))) as [[]|e] eqn:A1; [|discriminate]. cbn in En. destruct (py_assert (b =? length (dedup ny))) as [[]|e] eqn:A2; [|discriminate].
  unfold py_assert in A1, A2. destruct (a =? length (dedup nx)) eqn:B1; [|discriminate]. destruct (b =? length (dedup ny)) eqn:B2; [|discriminate].
  assert (a = b).
  { unfold d_card_of in Nc. cbn [dvars dtens] in Nc. rewrite Es in Nc. cbn [combine dget] in Nc. repeat destruct (eq_dec _ _); congruence. }
  subst b. unfold py_assert. rewrite B1, B2. cbn [bind]. eexists. split; [reflexivity|]. split; reflexivity.
Qed.
Section Flip.
Context (card : string -> nat) (nm : string -> list aname) (o : oracle) (Ho : oracle_ok o) (factors : list dense) (ev : option (dict string nat)) (special : dict string nat) (g0 : cgraph dense nat).
Context (G : forall f, In f factors -> dgood card nm f) (Hmk : mk_graph (dense_ops o) o factors ev special = Ok g0) (Hlin : lined g0).
Lemma query_exchanged g x y e0 : history (dense_ops o) g0 g -> agrees_opt ev e0 -> agrees special e0 -> fits card factors e0 ->
  answers_in_order g [x; y] -> ~ In x (dkeys special) -> ~ In y (dkeys special) -> x <> y -> card x = card y ->
  (exists c, In c (g_cl g) /\ In x (dvars (cl_fac c)) /\ In y (dvars (cl_fac c))) ->
  exists r r', get_marginal (dense_ops o) g [x; y] = Ok r /\ get_marginal (dense_ops o) g [y; x] = Ok r' /\
    dvars r = [x; y] /\ dvars r' = [y; x] /\ forall e, dval r' e = dval r (exchanged x y e).
Proof.
  intros H E1 E2 E3 Or Hx Hy Nxy N (c & Hc & Cx & Cy).
  assert (Hs : forall v, In v [x; y] -> ~ In v (dkeys special)) by (intros v [<-|[<-|[]]]; assumption).
  destruct (query_some card nm o Ho factors ev special g0 G Hmk Hlin g [x; y] e0 H E1 E2 E3 Or Hs) as (res & Hr); [exists c; split; [exact Hc|]; intros v [<-|[<-|[]]]; assumption|].
  destruct (run_inv card nm o Ho factors ev special g0 G Hmk Hlin g H) as [Hh I].
  destruct (query_sim card nm o g [x; y] I Or) as (_ & Q); [intros v Hv; rewrite (DenseGraph3.run_spec o Ho factors ev special g0 Hmk g H); now apply Hs|].
  destruct (Q res Hr) as (Gr & Vr & _). exists res. pose proof Hr as Hr0. unfold get_marginal in Hr |- *. cbn [dense_ops f_vars f_reduce f_marg] in *.
  assert (Ef : find (fun c => subsetb [y; x] (dvars (cl_fac c))) (g_cl g) = find (fun c => subsetb [x; y] (dvars (cl_fac c))) (g_cl g)).
  { clear. induction (g_cl g) as [|d l IH]; [reflexivity|]. cbn [find]. rewrite IH.
    assert (subsetb [y; x] (dvars (cl_fac d)) = subsetb [x; y] (dvars (cl_fac d))) as ->; [|reflexivity].
    apply eq_true_iff_eq. rewrite !subsetb_incl. unfold incl. cbn. firstorder. }
  rewrite Ef. destruct (find _ (g_cl g)) as [d|]; [|discriminate]. destruct (subset_evidence (g_spec g) (dvars (cl_fac d))) as [evs vals].
  apply bind_ok in Hr. destruct Hr as (f & Hf & Hr). rewrite Hf. cbn [bind].
  destruct (flipped_same o f x y res (dg_wf _ _ _ Gr) Nxy Hr) as (r' & R1 & R2 & R3).
  { rewrite !(dg_card_of card nm res _ Gr) by (rewrite Vr; cbn; auto). exact N. }
  exists r'. split; [exact Hr|]. split; [exact R1|]. split; [exact Vr|]. split; [exact R2|].
  intros e. unfold dval. rewrite R2, R3, Vr. cbn [map]. unfold exchanged. destruct (string_dec x x); [|congruence]. destruct (string_dec y x); [congruence|]. destruct (string_dec y y); [|congruence]. reflexivity.
Qed.
End Flip.

(** A chain a-c-d-e of two values each, in which only the first table is not constant. *)
Definition fl_card (_ : string) : nat := 2.
Definition fl_chain : list dense :=
  [dfn ["a"; "c"] [2; 2] (fun k => match k with [1; 0] => 1%R | _ => 0%R end); dfn ["c"; "d"] [2; 2] (fun _ => 0%R); dfn ["d"; "e"] [2; 2] (fun _ => 0%R)].
Definition fl_env (p q : nat) : env := fun v => if string_dec v "a" then p else if string_dec v "c" then q else 0.
Lemma fl_good : forall f, In f fl_chain -> dgood fl_card (std_names fl_card) f.
Proof. intros f [<-|[<-|[<-|[]]]]; apply dfn_good; [nodups|unfold fl_card; auto|nodups|unfold fl_card; auto|nodups|unfold fl_card; auto]. Qed.
Lemma fl_fits p q : p < 2 -> q < 2 -> fits fl_card fl_chain (fl_env p q).
Proof. intros Hp Hq f w _ _. unfold fl_card, fl_env. destruct (string_dec w "a"), (string_dec w "c"); lia. Qed.
Lemma fl_agrees e : agrees ([] : dict string nat) e.
Proof. intros v x H. discriminate. Qed.
Lemma fl_narrow : narrow fl_chain (all_evidence None ([] : dict string nat)).
Proof.
  intros i j fi fj v w Hij Hi Hj V1 V2 W1 W2 _ _.
  destruct i as [|[|[|i]]]; cbn in Hi; try (destruct i; discriminate); injection Hi as <-;
  destruct j as [|[|[|j]]]; cbn in Hj; try (destruct j; discriminate); injection Hj as <-; try congruence;
  cbn in V1, V2, W1, W2; intuition congruence.
Qed.
Lemma fl_links g : mk_graph (dense_ops id_oracle) id_oracle fl_chain None [] = Ok g -> length (g_cl g) = 3 /\
  (forall i j, linked g i j <-> In (i, j) [(0, 1); (1, 0); (1, 2); (2, 1)]) /\ map cl_fac (g_cl g) = fl_chain /\ stays_in_order g ["a"; "c"].
Proof.
  intros H. destruct (mk_graph_made _ id_oracle fl_chain None [] g id_oracle_ok H) as (reduced & final & M).
  assert (Ef : final = fl_chain).
  { pose proof (mk_reduced _ _ _ _ _ _ _ _ M) as E1. pose proof (mk_final _ _ _ _ _ _ _ _ M) as E2.
    assert (reduced = fl_chain) by (cbn in E1; now inversion E1). subst reduced.
    assert (E : absorb_subsets (dense_ops id_oracle) fl_chain = Ok fl_chain) by reflexivity. congruence. }
  subst final. pose proof (mk_struct _ _ _ _ _ _ _ _ M) as ST. pose proof (made_facs _ _ _ _ _ _ _ _ M) as Fs.
  assert (Hl : length (g_cl g) = 3).
  { pose proof Fs as E. apply (f_equal (@length _)) in E. rewrite map_length in E. rewrite E. reflexivity. }
  assert (HE : forall i j, linked g i j <-> In (i, j) [(0, 1); (1, 0); (1, 2); (2, 1)]).
  { intros i j. transitivity (exists s, graph_sep id_oracle (map dvars fl_chain) (all_evidence None ([] : dict string nat)) i j = Some s).
    - split.
      + intros (k & p & Hp & <- & <-). exact (st_path _ _ ST k p Hp).
      + intros (s & Hs). destruct (st_edge _ _ ST i j s Hs) as (_ & _ & _ & _ & _ & k & p & HH). exists k, p. exact HH.
    - split.
      + intros (s & Hs). assert (R : i < 3 /\ j < 3).
        { destruct (st_edge _ _ ST i j s Hs) as (R1 & R2 & _). lia. }
        destruct i as [|[|[|i]]]; try lia; destruct j as [|[|[|j]]]; try lia;
          cbn; try tauto; cbv in Hs; discriminate.
      + intros I. repeat (destruct I as [I|I]; [inversion I; subst; eexists; vm_compute; reflexivity|]); destruct I. }
  split; [exact Hl|]. split; [exact HE|]. split; [exact Fs|].
  intros i c Hc Hv. assert (Fc : nth_error fl_chain i = Some (cl_fac c)) by (rewrite <- Fs, nth_error_map, Hc; reflexivity).
  assert (i = 0).
  { destruct i as [|[|[|i]]]; [reflexivity| | |destruct i; discriminate Fc]; cbn in Fc; injection Fc as Fc; rewrite <- Fc in Hv; destruct (Hv "a" (or_introl eq_refl)) as [C|[C|[]]]; discriminate C. }
  subst i. cbn in Fc. injection Fc as <-. split; [reflexivity|]. intros j T HT. apply (edge_with_sep _ g 0 j T ST) in HT.
  change (graph_sep id_oracle (map dvars fl_chain) [] 0 j = Some T) in HT. destruct j as [|[|[|j]]]; [vm_compute in HT; discriminate|vm_compute in HT; injection HT as <-; reflexivity|vm_compute in HT; discriminate|].
  exfalso. destruct (st_edge _ _ ST 0 (S (S (S j))) T HT) as (_ & R2 & _). lia.
Qed.
Lemma fl_swapped : exists g ks g' r r', mk_graph (dense_ops id_oracle) id_oracle fl_chain None [] = Ok g /\ lined g /\ tree_shaped g /\ two_sweeps g ks /\
  foldM (pass_path (dense_ops id_oracle)) ks g = Ok g' /\ answers_in_order g' ["a"; "c"] /\ get_marginal (dense_ops id_oracle) g' ["a"; "c"] = Ok r /\ get_marginal (dense_ops id_oracle) g' ["c"; "a"] = Ok r' /\
  dpot r (fl_env 1 0) = sum_over fl_card ["d"; "e"] (fun e => Rprod (map (fun f => dpot f e) fl_chain)) (fl_env 1 0) /\
  dpot r' (fl_env 1 0) <> sum_over fl_card ["d"; "e"] (fun e => Rprod (map (fun f => dpot f e) fl_chain)) (fl_env 1 0).
Proof.
  pose proof (fl_fits 1 0 ltac:(lia) ltac:(lia)) as Fit. pose proof (fl_fits 0 1 ltac:(lia) ltac:(lia)) as Fit2.
  destruct (dense_graph_some fl_card (std_names fl_card) id_oracle fl_chain None [] (fl_env 1 0) id_oracle_ok fl_good fl_narrow I (fl_agrees _) Fit) as (g & H & H0).
  pose proof (one_lined _ _ _ _ _ _ g id_oracle_ok fl_good H H0) as H1. destruct (fl_links g H) as (Hl & HE & Fs & St).
  assert (TR : tree_shaped g). { destruct (path3 (linked g) HE) as [P1 P2]. split; [|exact P2]. unfold connected. rewrite Hl. exact P1. }
  destruct (dense_sweeps_run fl_card (std_names fl_card) id_oracle id_oracle_ok fl_chain None [] g fl_good H H1 g 0 (fl_env 1 0) (hi_init _ _) TR I (fl_agrees _) Fit
    ltac:(lia)) as (ks & g' & K1 & K2 & K3).
  assert (Hh : history (dense_ops id_oracle) g g') by (eapply (history_passes (dense_ops id_oracle)); [apply hi_init|exact K3]).
  pose proof (stays_ok fl_card (std_names fl_card) id_oracle id_oracle_ok fl_chain None [] g fl_good H H1 ["a"; "c"] g' St Hh) as Or.
  assert (HC : exists c, In c (g_cl g') /\ In "a" (dvars (cl_fac c)) /\ In "c" (dvars (cl_fac c))).
  { destruct (run_inv fl_card (std_names fl_card) id_oracle id_oracle_ok fl_chain None [] g fl_good H H1 g' Hh) as [Ha _].
    destruct (built fl_card (std_names fl_card) id_oracle id_oracle_ok fl_chain None [] g fl_good H H1) as [Hb _].
    destruct (mk_graph_made (aligned_ops id_oracle) id_oracle fl_chain None [] g id_oracle_ok Hb) as (reduced & final & M).
    destruct (history_live (aligned_ops id_oracle) fl_card (dgood fl_card (std_names fl_card)) dpt (aligned_lawful fl_card (std_names fl_card) id_oracle) id_oracle fl_chain None [] g id_oracle_ok fl_good reduced final g' M Ha) as [Gfin LV].
    pose proof (lv_inv _ _ _ _ _ _ _ _ LV) as IV. pose proof (made_facs _ _ _ _ _ _ _ _ M) as E. rewrite Fs in E. subst final.
    destruct (nth_error (g_cl g') 0) as [c|] eqn:Ec.
    - destruct (iv_cl _ _ _ _ _ _ _ _ IV 0 c Ec) as (f2 & X2 & _ & (_ & Hs) & _). cbn in X2. injection X2 as <-. exists c. split; [eapply nth_error_In; eauto|]. split; apply Hs; cbn; auto.
    - apply nth_error_None in Ec. rewrite (iv_len _ _ _ _ _ _ _ _ IV) in Ec. cbn in Ec. lia. }
  destruct (query_exchanged fl_card (std_names fl_card) id_oracle id_oracle_ok fl_chain None [] g fl_good H H1 g' "a" "c" (fl_env 1 0) Hh I (fl_agrees _) Fit Or) as (r & r' & R1 & R2 & _ & _ & R5);
    [intros []|intros []|discriminate|reflexivity|exact HC|].
  destruct (query_sweeps fl_card (std_names fl_card) id_oracle id_oracle_ok fl_chain None [] g fl_good H H1 g ks g' ["a"; "c"] r (hi_init _ _) TR K1 K3 Or ltac:(intros v _ []) R1) as (_ & V).
  assert (Rm : forall w, In w ["d"; "e"] <-> (exists f, In f fl_chain /\ In w (dvars f)) /\ ~ In w (observed (None : option (dict string nat))) /\ ~ In w (dkeys ([] : dict string nat)) /\ ~ In w ["a"; "c"]).
  { intros w. split.
    - intros [<-|[<-|[]]]; (split; [eexists; split; [right; right; left; reflexivity|cbn; auto]|]); cbn; intuition discriminate.
    - intros ((f & [<-|[<-|[<-|[]]]] & Hw) & _ & _ & N); cbn in Hw, N |- *; intuition. }
  pose proof (V ["d"; "e"] (fl_env 1 0) I (fl_agrees _) Fit ltac:(nodups) Rm) as V1.
  pose proof (V ["d"; "e"] (fl_env 0 1) I (fl_agrees _) Fit2 ltac:(nodups) Rm) as V2.
  exists g, ks, g', r, r'. do 8 (split; [assumption|]). split; [exact V1|].
  assert (X : dpot r' (fl_env 1 0) = dpot r (fl_env 0 1)).
  { unfold dpot. rewrite R5. f_equal. unfold dval. f_equal. apply map_ext_in. intros v _. unfold exchanged, fl_env. repeat destruct (string_dec _ _); congruence. }
  rewrite X, V2. clear. cbn. unfold dpot, dval. cbn. rewrite !exp_0. pose proof (exp_ineq1 1 ltac:(lra)). lra.
Qed.
