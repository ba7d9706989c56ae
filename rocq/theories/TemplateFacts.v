(** Proofs about the table templates. *)
From Verif Require Export TemplateModel DenseExamples.
Local Open Scope string_scope.
Local Open Scope list_scope.
Local Open Scope nat_scope.

(** The names of a new factor: filled in from the templates, or given. *)
Definition names_from (tpl : list string) (d : option (dict string string)) (given : option (list string)) (names : list string) : Prop :=
  (exists d', d = Some d' /\ given = None /\ format_list_elements tpl d' = Ok names) \/ (d = None /\ given = Some names).

Lemma shape_default vars (t : tensor val) : NoDup vars -> length (tshape t) = length vars ->
  wf_shape {| dvars := vars; dtens := t; dcards := tshape t; dnames := names_default vars (tshape t) |}.
Proof.
  intros Hn Hl.
  destruct (dtab_wf vars (tshape t) [] Hn Hl) as [[A1 A2 A3 A4 A5] _]; [intros ? ? []|].
  split; cbn; auto.
Qed.

Lemma ct_step tpl cards probs logt d given names : names_from tpl d given names ->
  exists t, mk_ctemplate (Some tpl) cards probs logt = Ok t /\ ct_make_factor t d given = categorical_init (Some names) cards probs logt.
Proof.
  intros H. eexists. split; [reflexivity|]. unfold ct_make_factor. cbn [ct_names ct_cards ct_probs ct_log t_vars].
  destruct H as [(d' & -> & -> & H)|[-> ->]]; [|reflexivity]. cbn [py_assert raise_if bind negb fmt_opt]. rewrite H. reflexivity.
Qed.

Lemma ct_tensor tpl cards probs w d given names : names_from tpl d given names -> NoDup names -> length (tshape w) = length names ->
  (cards = None \/ cards = Some (tshape w)) -> (forall k, is_lp (tget w k)) ->
  exists t f, mk_ctemplate (Some tpl) cards probs (Some w) = Ok t /\ ct_make_factor t d given = Ok f /\ wf_dense f /\ dvars f = names /\
    (forall v c, d_has_card f v c <-> In (v, c) (combine names (tshape w))) /\ (forall e, dval f e = tget w (map e names)).
Proof.
  intros H Hn Hl Hc Hw. destruct (ct_step tpl cards probs (Some w) d given names H) as (t & Ht & E).
  exists t. rewrite E. unfold categorical_init, mk_dense. rewrite (proj2 (nodupb_iff names) Hn). cbn [negb raise_if bind].
  unfold ndim. assert (X : match cards with Some c => c | None => tshape w end = tshape w) by (destruct Hc as [->| ->]; reflexivity).
  rewrite X.
  assert (Y : match cards with Some c => raise_if (negb (Nat.eqb (length c) (length names))) ValueError | None => Ok tt end = Ok tt)
    by (destruct Hc as [->| ->]; [reflexivity|rewrite Hl, Nat.eqb_refl; reflexivity]).
  rewrite Y, Hl, Nat.eqb_refl. cbn [negb raise_if bind mk_names]. eexists. split; [exact Ht|]. split; [reflexivity|].
  split; [split; [now apply shape_default|]|]. { intros e _. apply Hw. }
  split; [reflexivity|]. split; [reflexivity|]. reflexivity.
Qed.

Lemma ct_probs_spec tpl cards p d given names : names_from tpl d given names -> NoDup names -> length cards = length names -> NoDup (dkeys p) ->
  (forall k x, In (k, x) p -> Forall2 (fun i c => i < c) k cards /\ (0 <= x)%R) ->
  exists t f, mk_ctemplate (Some tpl) (Some cards) (Some p) None = Ok t /\ ct_make_factor t d given = Ok f /\ wf_dense f /\ dvars f = names /\
    (forall v c, d_has_card f v c <-> In (v, c) (combine names cards)) /\
    (forall k x e, In (k, x) p -> map e names = k -> dpot f e = x) /\
    (forall e, d_in_range f e -> ~ In (map e names) (dkeys p) -> dpot f e = 0%R).
Proof.
  intros H Hn Hl Hk Hr. destruct (ct_step tpl (Some cards) (Some p) None d given names H) as (t & Ht & E).
  destruct (same_dict names cards p Hn Hl Hk Hr) as (s & f & Hs & Hf & Ws & _ & Wf & Vs & Vf & C & _ & P1 & P2).
  exists t, f. rewrite E. unfold categorical_init. rewrite (proj2 (nodupb_iff names) Hn). cbn [negb raise_if bind].
  split; [exact Ht|]. split; [exact Hf|]. split; [exact Wf|]. split; [exact Vf|]. split; [|split; assumption].
  intros v c. rewrite <- C. unfold has_card. unfold mk_sparse_probs, mk_sparse in Hs.
  rewrite (proj2 (nodupb_iff names) Hn), Hl, Nat.eqb_refl in Hs. cbn [negb] in Hs. injection Hs as <-. reflexivity.
Qed.

Lemma ct_errors tpl cards probs logt t : mk_ctemplate (Some tpl) cards probs logt = Ok t ->
  (forall d l, ct_make_factor t (Some d) (Some l) = Err AssertionError) /\ ct_make_factor t None None = Err TypeError /\
  (forall d e, format_list_elements tpl d = Err e -> ct_make_factor t (Some d) None = Err e) /\
  (forall d given names, names_from tpl d given names -> ~ NoDup names -> ct_make_factor t d given = Err ValueError) /\
  (forall d given names, names_from tpl d given names -> logt = None -> cards = None \/ probs = None -> ct_make_factor t d given = Err ValueError).
Proof.
  intros Ht. injection Ht as <-. split; [reflexivity|]. split; [reflexivity|]. split; [|split].
  - intros d e H. unfold ct_make_factor. cbn [ct_names t_vars py_assert raise_if bind negb fmt_opt]. now rewrite H.
  - intros d given names H Hn. destruct (ct_step tpl cards probs logt d given names H) as (t & Ht & E). injection Ht as <-. rewrite E.
    unfold categorical_init, mk_dense. destruct (nodupb names) eqn:X; [apply nodupb_iff in X; contradiction|]. destruct logt; reflexivity.
  - intros d given names H -> Hc. destruct (ct_step tpl cards probs None d given names H) as (t & Ht & E). injection Ht as <-. rewrite E.
    unfold categorical_init. destruct (nodupb names); [|reflexivity]. cbn [negb raise_if bind]. destruct Hc as [->| ->]; [reflexivity|]. destruct cards; reflexivity.
Qed.

Lemma st_step tpl cards p d given names : names_from tpl d given names ->
  exists t, mk_stemplate p cards (Some tpl) = Ok t /\ st_make_factor t d given = mk_sparse_probs names cards p NInf.
Proof.
  intros H. eexists. split; [reflexivity|]. unfold st_make_factor. cbn [st_names st_cards st_probs t_vars raise_if bind].
  destruct H as [(d' & -> & -> & H)|[-> ->]]; [|reflexivity]. cbn [py_assert raise_if bind negb fmt_opt]. rewrite H. reflexivity.
Qed.
Lemma st_probs_spec tpl cards p d given names : names_from tpl d given names -> NoDup names -> length cards = length names -> NoDup (dkeys p) ->
  (forall k x, In (k, x) p -> Forall2 (fun i c => i < c) k cards /\ (0 <= x)%R) ->
  exists t f, mk_stemplate p cards (Some tpl) = Ok t /\ st_make_factor t d given = Ok f /\ wf_sparse f /\ zero_default f /\ svars f = names /\
    (forall v c, has_card f v c <-> In (v, c) (combine names cards)) /\
    (forall k x e, In (k, x) p -> map e names = k -> spot f e = x) /\
    (forall e, ~ In (map e names) (dkeys p) -> spot f e = 0%R) /\
    (exists t' f', mk_ctemplate (Some tpl) (Some cards) (Some p) None = Ok t' /\ ct_make_factor t' d given = Ok f' /\ represent f f').
Proof.
  intros H Hn Hl Hk Hr. destruct (st_step tpl cards p d given names H) as (t & Ht & E).
  destruct (ct_step tpl (Some cards) (Some p) None d given names H) as (t' & Ht' & E').
  destruct (same_dict names cards p Hn Hl Hk Hr) as (s & f & Hs & Hf & Ws & Zs & Wf & Vs & Vf & C & V & P1 & P2).
  exists t, s. rewrite E. split; [exact Ht|]. split; [exact Hs|]. split; [exact Ws|]. split; [exact Zs|]. split; [exact Vs|].
  assert (Es : s = {| svars := names; scards := cards; stbl := map (fun kv => (fst kv, rlog (snd kv))) p; sdef := NInf |}).
  { unfold mk_sparse_probs, mk_sparse in Hs. rewrite (proj2 (nodupb_iff names) Hn), Hl, Nat.eqb_refl in Hs. cbn [negb] in Hs. now injection Hs as <-. }
  assert (HV : forall e, sval s e = match dget p (map e names) with Some x => rlog x | None => NInf end).
  { intros e. rewrite Es. unfold sval. cbn [svars stbl sdef]. rewrite (dget_map rlog). destruct (dget p (map e names)); reflexivity. }
  split; [|split; [|split]].
  - intros v c. rewrite Es. reflexivity.
  - intros k x e Hkx <-. unfold spot. rewrite HV, (In_dget _ _ _ Hk Hkx).
    destruct (Hr _ _ Hkx) as [_ Hx]. unfold rlog, Rlt_b, Req_b. destruct (Rlt_dec 0 x); [cbn; now apply exp_ln|].
    destruct (Req_EM_T x 0); [now subst|]. exfalso. lra.
  - intros e Hni. unfold spot. rewrite HV. apply dget_None in Hni. rewrite Hni. reflexivity.
  - exists t', f. rewrite E'. unfold categorical_init. rewrite (proj2 (nodupb_iff names) Hn). cbn [negb raise_if bind].
    split; [exact Ht'|]. split; [exact Hf|]. split; [exact C|]. intros e He. unfold spot, dpot. now rewrite V.
Qed.
Lemma st_errors tpl cards p t : mk_stemplate p cards (Some tpl) = Ok t ->
  (forall d l, st_make_factor t (Some d) (Some l) = Err AssertionError) /\ st_make_factor t None None = Err TypeError /\
  (forall d e, format_list_elements tpl d = Err e -> st_make_factor t (Some d) None = Err e) /\
  (forall d given names, names_from tpl d given names -> ~ NoDup names \/ length cards <> length names -> st_make_factor t d given = Err ValueError).
Proof.
  intros Ht. injection Ht as <-. split; [reflexivity|]. split; [reflexivity|]. split.
  - intros d e H. unfold st_make_factor. cbn [st_names t_vars py_assert raise_if bind negb fmt_opt]. now rewrite H.
  - intros d given names H Hn. destruct (st_step tpl cards p d given names H) as (t & Ht & E). injection Ht as <-. rewrite E.
    unfold mk_sparse_probs, mk_sparse. destruct (nodupb names) eqn:X; [|reflexivity]. cbn [negb]. apply nodupb_iff in X.
    destruct (Nat.eqb_spec (length cards) (length names)); [|reflexivity]. exfalso. tauto.
Qed.
(** Without templates the names must be given. *)
Lemma st_no_templates cards p t : mk_stemplate p cards None = Ok t ->
  (forall d, st_make_factor t d None = Err ValueError) /\ (forall d l, st_make_factor t (Some d) (Some l) = Err AssertionError) /\
  (forall l, st_make_factor t None (Some l) = mk_sparse_probs l cards p NInf).
Proof. intros Ht. injection Ht as <-. repeat split; reflexivity. Qed.

(** Two factors of a template are the same function up to the names. *)
Lemma ct_renamed tpl cards probs w d1 d2 g1 g2 n1 n2 t f1 f2 : mk_ctemplate (Some tpl) cards probs (Some w) = Ok t ->
  names_from tpl d1 g1 n1 -> names_from tpl d2 g2 n2 -> ct_make_factor t d1 g1 = Ok f1 -> ct_make_factor t d2 g2 = Ok f2 ->
  dvars f1 = n1 /\ dvars f2 = n2 /\ dtens f1 = dtens f2 /\ forall e1 e2, map e1 n1 = map e2 n2 -> dval f1 e1 = dval f2 e2.
Proof.
  intros Ht H1 H2 E1 E2. destruct (ct_step tpl cards probs (Some w) d1 g1 n1 H1) as (t1 & Ht1 & S1).
  destruct (ct_step tpl cards probs (Some w) d2 g2 n2 H2) as (t2 & Ht2 & S2).
  rewrite Ht in Ht1, Ht2. injection Ht1 as <-. injection Ht2 as <-. rewrite S1 in E1. rewrite S2 in E2.
  assert (X : forall n f, categorical_init (Some n) cards probs (Some w) = Ok f -> dvars f = n /\ dtens f = w).
  { intros n f E. unfold categorical_init, mk_dense in E. apply bind_ok in E. destruct E as (? & _ & E).
    apply bind_ok in E. destruct E as (? & _ & E). apply bind_ok in E. destruct E as (? & _ & E).
    cbn [mk_names bind] in E. injection E as <-. split; reflexivity. }
  destruct (X _ _ E1) as [A1 B1], (X _ _ E2) as [A2 B2]. split; [exact A1|]. split; [exact A2|]. split; [congruence|].
  intros e1 e2 He. unfold dval. rewrite A1, A2, B1, B2, He. reflexivity.
Qed.

Lemma tpl_example : names_from ["a_{i}"; "b_{i}"] (Some [("i", "7")]) None ["a_7"; "b_7"] /\ names_from ["a_{i}"; "b_{i}"] None (Some ["x"; "y"]) ["x"; "y"] /\
  NoDup ["a_7"; "b_7"] /\ format_list_elements ["a_{i}"; "b_{i}"] [("j", "7")] = Err KeyError /\
  names_from ["a_{i}"; "a_{j}"] (Some [("i", "7"); ("j", "7")]) None ["a_7"; "a_7"] /\
  NoDup (dkeys [([0; 1], 1%R); ([1; 2], 0%R)]) /\
  (forall k x, In (k, x) [([0; 1], 1%R); ([1; 2], 0%R)] -> Forall2 (fun i c => i < c) k [2; 3] /\ (0 <= x)%R).
Proof.
  split; [left; eexists; repeat split; reflexivity|]. split; [right; split; reflexivity|].
  split; [repeat (constructor; [cbn; intuition congruence|]); constructor|]. split; [reflexivity|].
  split; [left; eexists; repeat split; reflexivity|].
  split; [cbn; repeat (constructor; [cbn; intuition congruence|]); constructor|].
  intros k x [H|[H|[]]]; injection H as <- <-; (split; [repeat constructor|lra]).
Qed.
