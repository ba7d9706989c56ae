(** Message passing over dense Categorical factors is the same as with aligned operations when
    every sepset is listed in the order of the clusters at both ends, also after other messages have
    moved variables to the end, and the tables are positive. *)
From Coq Require Import ZArith.
From Verif Require Export DenseLaws GraphTheorems2 GraphSweep GraphConv.

Lemma filter_one (s : string) l : NoDup l -> In s l -> filter (fun v => mem v [s]) l = [s].
Proof.
  induction l as [|x l IH]; intros Hn Hs; [destruct Hs|]. inversion Hn as [|? ? Hx Hn']; subst. cbn [filter].
  destruct (mem x [s]) eqn:E.
  - apply mem_In in E. destruct E as [<-|[]]. f_equal.
    destruct (filter (fun v => mem v [s]) l) as [|y m] eqn:F; [reflexivity|].
    assert (Hy : In y (filter (fun v => mem v [s]) l)) by (rewrite F; left; reflexivity).
    apply filter_In in Hy. destruct Hy as [Hy Hm]. apply mem_In in Hm. destruct Hm as [<-|[]]. contradiction.
  - apply IH; [exact Hn'|]. destruct Hs as [->|Hs]; [|exact Hs]. apply mem_nIn in E. elim E. left; reflexivity.
Qed.
Lemma singleton_eq (l : list string) s : NoDup l -> (forall v, In v l <-> In v [s]) -> l = [s].
Proof.
  intros Hn H. destruct l as [|x l].
  - exfalso. apply (proj2 (H s)). left; reflexivity.
  - assert (x = s) by (destruct (proj1 (H x) (or_introl eq_refl)) as [E|[]]; congruence). subst x. f_equal.
    destruct l as [|y l]; [reflexivity|]. exfalso. inversion Hn as [|? ? Hx]; subst. apply Hx. left.
    destruct (proj1 (H y) (or_intror (or_introl eq_refl))) as [E|[]]; congruence.
Qed.
(** The variables [S] come in [X] in the same order. *)
Definition listed (S X : list string) : Prop := filter (fun v => mem v S) X = S.
(** The order of [T] is not changed when the variables [S] move to the end. *)
Definition keeps (S T : list string) : Prop := filter (fun v => negb (mem v S)) T ++ filter (fun v => mem v T) S = T.
Definition moved (S X : list string) : list string := filter (fun v => negb (mem v S)) X ++ S.
Lemma listed_In S X v : listed S X -> In v S -> In v X.
Proof. intros L H. rewrite <- L in H. apply filter_In in H. tauto. Qed.
Lemma listed_NoDup S X : NoDup X -> listed S X -> NoDup S.
Proof. intros N L. rewrite <- L. now apply NoDup_filter. Qed.
Lemma filter_swap {A} (p q : A -> bool) l : filter p (filter q l) = filter q (filter p l).
Proof.
  induction l as [|x l IH]; cbn; [reflexivity|]. destruct (p x) eqn:P, (q x) eqn:Q; cbn; rewrite ?P, ?Q, IH; reflexivity.
Qed.
Lemma filter_all {A} (p : A -> bool) l : (forall x, In x l -> p x = true) -> filter p l = l.
Proof.
  induction l as [|x l IH]; intros H; cbn; [reflexivity|]. rewrite (H x (or_introl eq_refl)). f_equal. apply IH. intros y Hy. apply H. right; exact Hy.
Qed.
Lemma filter_none {A} (p : A -> bool) l : (forall x, In x l -> p x = false) -> filter p l = [].
Proof.
  induction l as [|x l IH]; intros H; cbn; [reflexivity|]. rewrite (H x (or_introl eq_refl)). apply IH. intros y Hy. apply H. right; exact Hy.
Qed.
Lemma listed_filter S X p : listed S X -> (forall v, In v S -> p v = true) -> listed S (filter p X).
Proof. unfold listed. intros L H. rewrite filter_swap, L. now apply filter_all. Qed.
Lemma listed_moved S T X : listed T X -> keeps S T -> listed T (moved S X).
Proof. unfold listed, keeps, moved. intros L K. now rewrite filter_app, filter_swap, L. Qed.
Lemma moved_self S X : NoDup X -> listed S X -> listed S (moved S X).
Proof.
  intros N L. apply listed_moved; [exact L|]. unfold keeps. rewrite filter_none, filter_all; [reflexivity| |].
  - intros x Hx. now apply mem_In.
  - intros x Hx. apply negb_false_iff. now apply mem_In.
Qed.
Lemma moved_In S X v : listed S X -> (In v (moved S X) <-> In v X).
Proof.
  intros L. unfold moved. rewrite in_app_iff, filter_In, negb_true_iff, mem_nIn. split.
  - intros [[H _]|H]; [exact H|now apply (listed_In S)].
  - intros H. destruct (in_dec string_dec v S); auto.
Qed.
Lemma moved_moved S X : moved S (moved S X) = moved S X.
Proof.
  unfold moved. rewrite filter_app. f_equal. rewrite (filter_none _ S).
  - rewrite app_nil_r. apply filter_all. intros x Hx. apply filter_In in Hx. tauto.
  - intros x Hx. apply negb_false_iff. now apply mem_In.
Qed.
Lemma listed_one s X : NoDup X -> In s X -> listed [s] X.
Proof. intros N H. exact (filter_one s X N H). Qed.
Lemma keeps_one s t : keeps [s] [t].
Proof.
  unfold keeps. cbn [filter]. destruct (mem t [s]) eqn:E; destruct (mem s [t]) eqn:E'; cbn; try reflexivity.
  - apply mem_In in E. destruct E as [->|[]]. reflexivity.
  - apply mem_In in E. destruct E as [->|[]]. apply mem_nIn in E'. elim E'. left; reflexivity.
  - apply mem_In in E'. destruct E' as [->|[]]. apply mem_nIn in E. elim E. left; reflexivity.
Qed.
Lemma tensor_vars ta tb X S f tv : listed S X -> tensor_operation ta tb X S f = Ok tv -> snd tv = moved S X.
Proof.
  intros L Ht. unfold tensor_operation in Ht. destruct (eqb X S) eqn:Q.
  - apply eqb_true in Q. subst X. apply bind_ok in Ht. destruct Ht as (t & _ & Ht). injection Ht as <-. cbn [snd]. unfold moved.
    rewrite filter_none; [reflexivity|]. intros x Hx. apply negb_false_iff. now apply mem_In.
  - cbn zeta in Ht. repeat (apply bind_ok in Ht; destruct Ht as (? & _ & Ht)). injection Ht as <-. cbn [snd]. unfold moved.
    assert (C : forall v, mem v (set_inter X S) = mem v S).
    { intros v. apply eq_true_iff_eq. rewrite !mem_In, In_set_inter. split; [tauto|]. intros H. split; [now apply (listed_In S)|exact H]. }
    rewrite (filter_none _ S); [|intros v Hv; rewrite C; apply negb_false_iff; now apply mem_In]. cbn [app].
    rewrite (filter_ext _ (fun v => negb (mem v S))); [|intros v; now rewrite C].
    rewrite (filter_ext (fun v => mem v (set_inter X S)) (fun v => mem v S)); [|exact C]. now rewrite L.
Qed.
Lemma multiply_moved a m r : listed (dvars m) (dvars a) -> d_multiply a m = Ok r -> dvars r = moved (dvars m) (dvars a).
Proof.
  intros L H. unfold d_multiply in H. apply bind_ok in H. destruct H as (u & _ & H).
  apply bind_ok in H. destruct H as (tv & Ht & H). apply bind_ok in H. destruct H as (u' & _ & H).
  apply bind_ok in H. destruct H as (ns & _ & H). rewrite <- (tensor_vars _ _ _ _ _ _ L Ht).
  unfold mk_dense in H. repeat (apply bind_ok in H; destruct H as (? & _ & H)). injection H as <-. reflexivity.
Qed.
Lemma divide_moved a m r : listed (dvars m) (dvars a) -> d_divide a m = Ok r -> dvars r = moved (dvars m) (dvars a).
Proof.
  intros L H. unfold d_divide in H. apply bind_ok in H. destruct H as (u & _ & H).
  apply bind_ok in H. destruct H as (tv & Ht & H). apply bind_ok in H. destruct H as (u' & _ & H).
  apply bind_ok in H. destruct H as (ns & _ & H). rewrite <- (tensor_vars _ _ _ _ _ _ L Ht).
  unfold mk_dense in H. repeat (apply bind_ok in H; destruct H as (? & _ & H)). injection H as <-. reflexivity.
Qed.
Lemma bshape_pad x s : bshape (repeat 1 (length x) ++ s) (x ++ s) = Ok (x ++ s).
Proof. apply bshape_app; [apply bshape_ones_l|apply bshape_same]. Qed.
Lemma broadcast_trailing x s : broadcast_shapes s (x ++ s) = Ok (x ++ s).
Proof.
  unfold broadcast_shapes, pad_shape. rewrite app_length.
  replace (Nat.max (length s) (length x + length s)) with (length x + length s) by lia.
  replace (length x + length s - length s) with (length x) by lia. rewrite Nat.sub_diag. cbn [repeat app]. apply bshape_pad.
Qed.

Section Sim.
Context (card : string -> nat) (nm : string -> list aname).
Notation good := (dgood card nm).

Lemma d_shape_card f : good f -> tshape (dtens f) = map card (dvars f).
Proof.
  intros G. rewrite (d_shape f (dg_wf _ _ _ G)). apply map_ext_in. intros v Hv. exact (dg_card_of card nm f v G Hv).
Qed.
(** With the divisor's variables last, [cancel] on positive tables is the aligned quotient. *)
Lemma cancel_divides_bs a b : good a -> good b -> broadcast_shapes (tshape (dtens b)) (tshape (dtens a)) = Ok (tshape (dtens a)) ->
  d_cancel a b = d_divide a b.
Proof.
  intros A B Hbs. pose proof (dg_wf _ _ _ A) as WA. pose proof (dg_wf _ _ _ B) as WB.
  unfold d_cancel, d_divide, tbin. rewrite Hbs. cbn [bind].
  rewrite (d_assert_cards_ok a b WA WB (dg_agree card nm a b A B)). cbn [bind].
  set (mask := {| tshape := _; tget := _ |}).
  assert (Hm : filter (tget mask) (tindices mask) = []).
  { destruct (filter (tget mask) (tindices mask)) as [|i l] eqn:E; [reflexivity|]. exfalso.
    assert (Hin : In i (filter (tget mask) (tindices mask))) by (rewrite E; left; reflexivity).
    apply filter_In in Hin. destruct Hin as [Hin Ht]. unfold tindices in Hin. cbn [mask tshape] in Hin.
    apply In_assignments in Hin. cbn [mask tget] in Ht. apply andb_true_iff in Ht. destruct Ht as [Ht _].
    pose proof (bindex_range _ _ _ _ Hbs Hin) as Hr.
    assert (Hk : In (bindex (tshape (dtens b)) i) (tindices (dtens b))) by (unfold tindices; now apply In_assignments).
    destruct (d_index_env b _ WB Hk) as [E1 E2]. pose proof (dg_pos _ _ _ B _ E2) as P. unfold dpot, dval in P. rewrite E1 in P.
    destruct (tget (dtens b) (bindex (tshape (dtens b)) i)); cbn in *; try discriminate; lra. }
  unfold tset_where. rewrite Hm. reflexivity.
Qed.
Lemma cancel_divides a b x : good a -> good b -> dvars a = x ++ dvars b -> d_cancel a b = d_divide a b.
Proof.
  intros A B Hv. apply cancel_divides_bs; auto. rewrite (d_shape_card a A), (d_shape_card b B), Hv, map_app. apply broadcast_trailing.
Qed.
Lemma cancel_divides_square a b n : good a -> good b -> (forall v, In v (dvars a) -> card v = n) -> incl (dvars b) (dvars a) ->
  d_cancel a b = d_divide a b.
Proof.
  intros A B Hn Hi. apply cancel_divides_bs; auto. rewrite (d_shape_card a A), (d_shape_card b B).
  pose proof (NoDup_incl_length (ws_vars b (dg_wf _ _ _ B)) Hi) as Hl.
  assert (R : forall l, incl l (dvars a) -> map card l = repeat n (length l)).
  { induction l as [|v l IH]; intros H; cbn; [reflexivity|]. rewrite (Hn v) by (apply H; left; reflexivity). f_equal. apply IH.
    intros w Hw. apply H. right; exact Hw. }
  rewrite (R _ Hi), (R _ (incl_refl _)).
  replace (length (dvars a)) with ((length (dvars a) - length (dvars b)) + length (dvars b)) by lia.
  rewrite repeat_app. apply broadcast_trailing.
Qed.
(** ** One cluster *)
Record cinv (c : cluster dense nat) : Prop := {
  ci_good : good (cl_fac c);
  ci_seps : forall nid S, dget (cl_seps c) nid = Some S -> S <> [] /\ listed S (dvars (cl_fac c)) /\ forall s, In s S -> ~ In s (dkeys (cl_spec c));
  ci_keep : forall nid S nid' T, dget (cl_seps c) nid = Some S -> dget (cl_seps c) nid' = Some T -> keeps S T;
  ci_recv : forall nid f, dget (cl_recv c) nid = Some f -> dget (cl_seps c) nid = Some (dvars f) /\ good f;
  ci_spec : NoDup (dkeys (cl_spec c)) /\ incl (dkeys (cl_spec c)) (dvars (cl_fac c)) /\
            length (dvals (cl_spec c)) = length (dkeys (cl_spec c)) }.

Lemma reduce_vars f vs xs r : good f -> NoDup vs -> incl vs (dvars f) -> length xs = length vs ->
  d_reduce f vs (map Z.of_nat xs) = Ok r -> dvars r = filter (fun v => negb (mem v vs)) (dvars f).
Proof.
  intros G Hn Hi Hl H. pose proof (dg_wf _ _ _ G) as W.
  assert (Hl' : length (map Z.of_nat xs) = length vs) by now rewrite map_length.
  assert (Hr : forall v z c, In (v, z) (combine vs (map Z.of_nat xs)) -> d_has_card f v c -> (0 <= z < Z.of_nat c)%Z).
  { intros v z c Hz Hc. destruct (Z_lt_dec z (Z.of_nat c)) as [L|L].
    - split; [|exact L]. apply in_combine_r in Hz. apply in_map_iff in Hz. destruct Hz as (x & <- & _). lia.
    - exfalso. rewrite (d_reduce_out_of_range f vs _ v z c (wd_s _ W) Hn Hl' Hz Hc) in H by (left; lia). discriminate. }
  destruct (d_reduce_spec f vs _ W Hn Hl' Hr) as (r' & H1 & H2 & H3 & _). congruence.
Qed.
Lemma make_sim o c nid : cinv c ->
  make_message (dense_ops o) c nid = make_message (aligned_ops o) c nid /\
  (forall m, make_message (aligned_ops o) c nid = Ok m -> dget (cl_seps c) nid = Some (dvars (m_fac m)) /\ good (m_fac m) /\
     m_snd m = cl_id c /\ m_rcv m = nid).
Proof.
  intros [G S KK R (K1 & K2 & K3)]. unfold make_message, dget_r.
  destruct (dget (cl_seps c) nid) as [sep|] eqn:E; [|split; [reflexivity|discriminate]].
  destruct (S nid sep E) as (_ & Hs & Hk). cbn [bind dense_ops aligned_ops f_reduce f_marg f_cancel].
  destruct (d_reduce (cl_fac c) (dkeys (cl_spec c)) (map Z.of_nat (dvals (cl_spec c)))) as [f1|er] eqn:E1;
    [|split; [reflexivity|discriminate]].
  cbn [bind]. destruct (reduce_law card nm _ _ _ f1 G K1 K2 K3 E1) as (G1 & V1 & _).
  assert (Hs1 : listed sep (dvars f1)).
  { rewrite (reduce_vars _ _ _ f1 G K1 K2 K3 E1). apply listed_filter; [exact Hs|]. intros v Hv. apply negb_true_iff, mem_nIn. now apply Hk. }
  pose proof (ws_vars f1 (dg_wf _ _ _ G1)) as N1.
  destruct (marg_law card nm o f1 sep G1) as (f2 & M1 & G2 & _ & V2 & _).
  { now apply (listed_NoDup sep (dvars f1)). }
  { intros v Hv. now apply (listed_In sep). }
  unfold listed in Hs1. rewrite Hs1 in M1, V2 |- *. rewrite M1. cbn [bind].
  destruct (dget (cl_recv c) nid) as [prev|] eqn:E2.
  - destruct (R nid prev E2) as (Vp & Gp). assert (Vp' : dvars prev = sep) by congruence.
    rewrite (cancel_divides f2 prev [] G2 Gp) by (rewrite V2, Vp'; reflexivity). split; [reflexivity|].
    intros m Hm. apply bind_ok in Hm. destruct Hm as (f3 & H3 & Hm). injection Hm as <-. cbn.
    destruct (div_law card nm f2 prev G2 Gp) as (f3' & D1 & D2 & D3 & _); [rewrite V2, Vp'; apply incl_refl|].
    assert (f3' = f3) by congruence. subst f3'. split; [|auto]. f_equal.
    rewrite (divide_moved f2 prev f3); [|rewrite V2, Vp'; apply filter_all; intros x Hx; now apply mem_In|exact D1].
    rewrite V2, Vp'. unfold moved. rewrite filter_none; [reflexivity|]. intros x Hx. apply negb_false_iff. now apply mem_In.
  - split; [reflexivity|]. intros m Hm. cbn [bind] in Hm. injection Hm as <-. cbn. rewrite V2. auto.
Qed.
Lemma receive_sim o c m : cinv c -> dget (cl_seps c) (m_snd m) = Some (dvars (m_fac m)) -> good (m_fac m) ->
  receive_message (dense_ops o) c m = receive_message (aligned_ops o) c m /\
  (forall c', receive_message (aligned_ops o) c m = Ok c' -> cinv c' /\ cl_id c' = cl_id c /\ cl_seps c' = cl_seps c /\ cl_out c' = cl_out c).
Proof.
  intros [G S KK R K] Hm Gm. unfold receive_message. destruct (py_assert _) as [[]|er]; [|split; [reflexivity|discriminate]].
  cbn [bind dense_ops aligned_ops f_mul f_cancel].
  destruct (S _ _ Hm) as (_ & Hs & Hk).
  destruct (mul_law card nm (cl_fac c) (m_fac m) G Gm) as (f1 & H1 & G1 & V1 & _). rewrite H1. cbn [bind].
  pose proof (multiply_moved _ _ f1 Hs H1) as Hx. pose proof (ws_vars _ (dg_wf _ _ _ G)) as N0.
  assert (Main : forall f2, good f2 -> dvars f2 = moved (dvars (m_fac m)) (dvars (cl_fac c)) ->
    cinv {| cl_fac := f2; cl_id := cl_id c; cl_seps := cl_seps c; cl_recv := dset (cl_recv c) (m_snd m) (m_fac m);
            cl_out := cl_out c; cl_spec := cl_spec c |}).
  { intros f2 G2 V2. split; cbn.
    - exact G2.
    - intros nid S' H. destruct (S nid S' H) as (Hn & Ht & Ht'). split; [exact Hn|]. split; [|exact Ht'].
      rewrite V2. apply listed_moved; [exact Ht|]. exact (KK _ _ _ _ Hm H).
    - exact KK.
    - intros nid f H. destruct (eq_dec nid (m_snd m)) as [->|Nn].
      + rewrite dget_dset_eq in H. injection H as <-. auto.
      + rewrite dget_dset_ne in H by exact Nn. now apply R.
    - destruct K as (K1 & K2 & K3). split; [exact K1|]. split; [|exact K3]. intros v Hv. rewrite V2. apply moved_In; [exact Hs|]. now apply K2. }
  destruct (dget (cl_recv c) (m_snd m)) as [prev|] eqn:E2.
  - destruct (R _ prev E2) as (Hs' & Gp). assert (Vp : dvars prev = dvars (m_fac m)) by congruence.
    rewrite (cancel_divides f1 prev (filter (fun v => negb (mem v (dvars (m_fac m)))) (dvars (cl_fac c))) G1 Gp) by (rewrite Hx, Vp; reflexivity). split; [reflexivity|].
    intros c' H. apply bind_ok in H. destruct H as (f2 & H2 & H). injection H as <-. cbn.
    destruct (div_law card nm f1 prev G1 Gp) as (f2' & D1 & D2 & D3 & _).
    { rewrite Vp, Hx. intros v Hv. unfold moved. apply in_or_app. right; exact Hv. }
    assert (f2' = f2) by congruence. subst f2'. split; [|auto]. apply Main; [exact D2|].
    rewrite (divide_moved f1 prev f2); [|rewrite Vp, Hx; now apply moved_self|exact D1]. rewrite Vp, Hx. apply moved_moved.
  - split; [reflexivity|]. intros c' H. cbn [bind] in H. injection H as <-. cbn. split; [|auto]. apply Main; [exact G1|exact Hx].
Qed.

(** ** The whole graph *)
Definition path_ok (cls : list (cluster dense nat)) (p : path dense) : Prop :=
  exists ci cj S, nth_error cls (p_snd p) = Some ci /\ nth_error cls (p_rcv p) = Some cj /\
    dget (cl_seps ci) (cl_id cj) = Some S /\ dget (cl_seps cj) (cl_id ci) = Some S /\
    m_snd (p_next p) = cl_id ci /\ good (m_fac (p_next p)) /\ dvars (m_fac (p_next p)) = S.
Record ginv (g : cgraph dense nat) : Prop := {
  gi_cl : forall i c, nth_error (g_cl g) i = Some c -> cinv c;
  gi_path : forall k p, nth_error (g_paths g) k = Some p -> path_ok (g_cl g) p }.

Lemma foldM_same {A B} (f h : B -> A -> res B) (P : B -> Prop) (l : list A) :
  (forall x b, In x l -> P b -> f b x = h b x /\ (forall b', h b x = Ok b' -> P b')) -> forall b, P b ->
  foldM f l b = foldM h l b /\ (forall b', foldM h l b = Ok b' -> P b').
Proof.
  induction l as [|x l IH]; intros H b Hb; cbn [foldM].
  - split; [reflexivity|]. intros b' E. injection E as <-. exact Hb.
  - destruct (H x b (or_introl eq_refl) Hb) as [E K]. rewrite E. destruct (h b x) as [b1|er]; cbn [bind].
    + apply IH; [|now apply K]. intros y c Hy. apply H. right; exact Hy.
    + split; [reflexivity|discriminate].
Qed.
Lemma recompute_sim o cls : (forall i c, nth_error cls i = Some c -> cinv c) -> forall ps k,
  (forall q p, nth_error ps q = Some p -> path_ok cls p) ->
  recompute_at (dense_ops o) cls ps k = recompute_at (aligned_ops o) cls ps k /\
  (forall ps', recompute_at (aligned_ops o) cls ps k = Ok ps' -> forall q p, nth_error ps' q = Some p -> path_ok cls p).
Proof.
  intros C ps k P. unfold recompute_at. destruct (py_nth ps k) as [p|er] eqn:E; [|split; [reflexivity|discriminate]].
  apply py_nth_inv in E. cbn [bind]. destruct (P k p E) as (ci & cj & s & Hi & Hj & S1 & S2 & M1 & M2 & M3).
  unfold recompute. rewrite (py_nth_some _ _ _ Hi), (py_nth_some _ _ _ Hj). cbn [bind].
  destruct (make_sim o ci (cl_id cj) (C _ _ Hi)) as [E1 E2]. rewrite E1.
  destruct (make_message (aligned_ops o) ci (cl_id cj)) as [m|er]; [|split; [reflexivity|discriminate]]. cbn [bind].
  change (info_gain (dense_ops o) (p_prev p) m) with (info_gain (aligned_ops o) (p_prev p) m). split; [reflexivity|].
  intros ps' H. apply bind_ok in H. destruct H as (p' & Hp & H). apply bind_ok in Hp. destruct Hp as (gain & _ & Hp). injection Hp as <-.
  destruct (list_set_inv _ _ _ _ H) as (_ & _ & Hn). intros q p' Hq. rewrite Hn in Hq.
  destruct (Nat.eq_dec q k) as [->|N]; [|now apply (P q)].
  injection Hq as <-. destruct (E2 m eq_refl) as (T1 & T2 & T3 & _). assert (dvars (m_fac m) = s) by congruence.
  exists ci, cj, s. cbn. auto 10.
Qed.
Lemma pass_sim o g k : ginv g -> pass_path (dense_ops o) g k = pass_path (aligned_ops o) g k /\
  (forall g', pass_path (aligned_ops o) g k = Ok g' -> ginv g').
Proof.
  intros [C P]. unfold pass_path. destruct (py_nth (g_paths g) k) as [p|er] eqn:E; [|split; [reflexivity|discriminate]].
  apply py_nth_inv in E. cbn [bind]. destruct (P k p E) as (ci & cj & s & Hi & Hj & S1 & S2 & M1 & M2 & M3).
  rewrite (py_nth_some _ _ _ Hj). cbn [bind].
  destruct (receive_sim o cj (p_next p) (C _ _ Hj)) as [E1 E2]; [rewrite M1, M3; exact S2|exact M2|]. rewrite E1.
  destruct (receive_message (aligned_ops o) cj (p_next p)) as [cj'|er]; [|split; [reflexivity|discriminate]].
  destruct (E2 cj' eq_refl) as (Cj & J1 & J2 & J3). cbn [bind].
  destruct (list_set (g_cl g) (p_rcv p) cj') as [cls|er] eqn:L; [|split; [reflexivity|discriminate]].
  destruct (list_set_inv _ _ _ _ L) as (_ & _ & Ln). cbn [bind].
  destruct (list_set (g_paths g) k _) as [ps1|er] eqn:L1; [|split; [reflexivity|discriminate]].
  destruct (list_set_inv _ _ _ _ L1) as (_ & _ & Ln1). cbn [bind].
  assert (C' : forall i c, nth_error cls i = Some c -> cinv c).
  { intros i c Hc. rewrite Ln in Hc. destruct (Nat.eq_dec i (p_rcv p)); [injection Hc as <-; exact Cj|now apply (C i)]. }
  assert (T : forall i c, nth_error (g_cl g) i = Some c -> exists c', nth_error cls i = Some c' /\ cl_id c' = cl_id c /\ cl_seps c' = cl_seps c).
  { intros i c Hc. rewrite Ln. destruct (Nat.eq_dec i (p_rcv p)) as [->|N]; [|eauto].
    assert (c = cj) by congruence. subst c. eauto. }
  assert (Q : forall p, path_ok (g_cl g) p -> path_ok cls p).
  { intros q (a & b & t & A1 & A2 & A3 & A4 & A5 & A6 & A7).
    destruct (T _ _ A1) as (a' & B1 & B2 & B3). destruct (T _ _ A2) as (b' & D1 & D2 & D3).
    exists a', b', t. rewrite B2, B3, D2, D3. auto 10. }
  assert (P1 : forall q p, nth_error ps1 q = Some p -> path_ok cls p).
  { intros q p' Hq. rewrite Ln1 in Hq. destruct (Nat.eq_dec q k) as [->|N]; [|now apply Q, (P q)].
    injection Hq as <-. exact (Q p (P k p E)). }
  destruct (foldM_same (recompute_at (dense_ops o) cls) (recompute_at (aligned_ops o) cls)
    (fun ps => forall q p, nth_error ps q = Some p -> path_ok cls p) (cl_out cj')) with (b := ps1) as [F1 F2].
  - intros x b _ Hb. exact (recompute_sim o cls C' b x Hb).
  - exact P1.
  - rewrite F1. split; [reflexivity|]. intros g' H. apply bind_ok in H. destruct H as (ps2 & H2 & H). injection H as <-.
    split; cbn; [exact C'|]. exact (F2 ps2 H2).
Qed.
Lemma ginv_same g g' : ginv g -> g_cl g' = g_cl g -> g_paths g' = g_paths g -> ginv g'.
Proof. intros [C P] E1 E2. split; rewrite E1; [exact C|]. rewrite E2. exact P. Qed.
Lemma step_sim o g : ginv g -> process_step (dense_ops o) g = process_step (aligned_ops o) g /\
  (forall r, process_step (aligned_ops o) g = Ok r -> ginv (fst r)).
Proof.
  intros I. unfold process_step. destruct (py_nth (g_order g) 0) as [k|er]; [|split; [reflexivity|discriminate]]. cbn [bind].
  destruct (pass_sim o g k I) as [E1 E2]. rewrite E1. destruct (pass_path (aligned_ops o) g k) as [g1|er]; [|split; [reflexivity|discriminate]].
  cbn [bind]. split; [reflexivity|]. intros r H. apply bind_ok in H. destruct H as (k' & _ & H). apply bind_ok in H. destruct H as (p' & _ & H).
  injection H as <-. cbn [fst]. apply (ginv_same g1); [now apply E2|reflexivity|reflexivity].
Qed.
Lemma loop_sim o tol n : forall g, ginv g -> process_loop (dense_ops o) tol n g = process_loop (aligned_ops o) tol n g /\
  (forall g', process_loop (aligned_ops o) tol n g = Ok g' -> ginv g').
Proof.
  induction n as [|n IH]; intros g I; cbn [process_loop].
  - split; [reflexivity|]. intros g' H. injection H as <-. exact I.
  - destruct (step_sim o g I) as [E1 E2]. rewrite E1. destruct (process_step (aligned_ops o) g) as [r|er]; [|split; [reflexivity|discriminate]].
    cbn [bind]. specialize (E2 r eq_refl). destruct (vleb (snd r) (Fin tol)).
    + split; [reflexivity|]. intros g' H. injection H as <-. exact E2.
    + now apply IH.
Qed.
Lemma process_sim o tol n g : ginv g -> (length (g_cl g) <> 1 \/ g_spec g = []) ->
  process_graph (dense_ops o) tol n g = process_graph (aligned_ops o) tol n g /\
  (forall g', process_graph (aligned_ops o) tol n g = Ok g' -> ginv g').
Proof.
  intros I Hs. unfold process_graph. cbn zeta. change (g_cl (reset_dists g)) with (g_cl g). change (g_spec (reset_dists g)) with (g_spec g).
  destruct (g_cl g) as [|c [|c' l]] eqn:E.
  - apply loop_sim. apply (ginv_same g); [exact I|reflexivity|reflexivity].
  - destruct Hs as [Hs|Hs]; [cbn in Hs; congruence|]. rewrite Hs. split; [reflexivity|]. intros g' H. injection H as <-.
    apply (ginv_same g); [exact I|reflexivity|reflexivity].
  - apply loop_sim. apply (ginv_same g); [exact I|reflexivity|reflexivity].
Qed.
Lemma process_same o tol n g : ginv g -> process_graph (dense_ops o) tol n g = process_graph (aligned_ops o) tol n g.
Proof.
  intros I. unfold process_graph. cbn zeta. change (g_cl (reset_dists g)) with (g_cl g). change (g_spec (reset_dists g)) with (g_spec g).
  destruct (g_cl g) as [|c [|c' l]] eqn:E; [|reflexivity|];
    (apply loop_sim; apply (ginv_same g); [exact I|reflexivity|reflexivity]).
Qed.
Lemma history_sim o g0 g : ginv g0 -> history (dense_ops o) g0 g -> history (aligned_ops o) g0 g /\ ginv g.
Proof.
  intros I. induction 1 as [|g k g' H [IH1 IH2] Hp|g tol n g' H [IH1 IH2] Hs Hp].
  - split; [constructor|exact I].
  - destruct (pass_sim o g k IH2) as [E1 E2]. rewrite E1 in Hp. split; [eapply hi_pass; eauto|now apply E2].
  - destruct (process_sim o tol n g IH2 Hs) as [E1 E2]. rewrite E1 in Hp. split; [eapply hi_process; eauto|now apply E2].
Qed.
Lemma passes_sim o ks : forall g, ginv g -> foldM (pass_path (dense_ops o)) ks g = foldM (pass_path (aligned_ops o)) ks g.
Proof.
  intros g I. apply (foldM_same _ _ ginv); [|exact I]. intros k h _ Hh. now apply pass_sim.
Qed.
Lemma marginal_sim o g v : ginv g -> ~ In v (dkeys (g_spec g)) ->
  get_marginal (dense_ops o) g [v] = get_marginal (aligned_ops o) g [v].
Proof.
  intros [C P] Hv. unfold get_marginal. cbn [dense_ops aligned_ops f_vars f_reduce f_marg].
  destruct (find _ (g_cl g)) as [c|] eqn:F; [|reflexivity]. apply find_some in F. destruct F as [Hin Hsub].
  apply In_nth_error in Hin. destruct Hin as (i & Hi). pose proof (ci_good _ (C i c Hi)) as G.
  pose proof (ws_vars _ (dg_wf _ _ _ G)) as Hn.
  apply subsetb_incl in Hsub. assert (Hvc : In v (dvars (cl_fac c))) by (apply Hsub; left; reflexivity).
  destruct (subset_evidence (g_spec g) (dvars (cl_fac c))) as [evs vals] eqn:E.
  destruct (subset_evidence_spec _ _ evs vals Hn E) as (E1 & E2 & E3).
  destruct (Nat.ltb 0 (length evs)).
  - destruct (d_reduce (cl_fac c) evs (map Z.of_nat vals)) as [f|er] eqn:R; [|reflexivity]. cbn [bind].
    assert (Hi' : incl evs (dvars (cl_fac c))) by (intros w Hw; apply E2 in Hw; tauto).
    destruct (reduce_law card nm _ _ _ f G E1 Hi' E3 R) as (G1 & V1 & _).
    rewrite (filter_one v (dvars f)); [reflexivity|apply (ws_vars _ (dg_wf _ _ _ G1))|].
    apply V1. split; [exact Hvc|]. intros C0. apply E2 in C0. tauto.
  - cbn [bind]. now rewrite (filter_one v (dvars (cl_fac c)) Hn Hvc).
Qed.

(** ** Construction *)
Record binv (cls0 : list (cluster dense nat)) (d : dict (nat * nat) (list string)) (g : cgraph dense nat) : Prop := {
  bi_len : length (g_cl g) = length cls0;
  bi_cl : forall i c, nth_error (g_cl g) i = Some c -> cinv c /\ cl_recv c = [] /\
    (forall nid S, dget (cl_seps c) nid = Some S -> exists a b, dget d (a, b) = Some S /\ (i = a \/ i = b)) /\
    exists c0, nth_error cls0 i = Some c0 /\ cl_fac c = cl_fac c0 /\ cl_spec c = cl_spec c0 }.
(** Sepsets are in order at both ends of their edges. *)
Definition in_order (cls0 : list (cluster dense nat)) (d : dict (nat * nat) (list string)) : Prop :=
  forall i j S, dget d (i, j) = Some S -> S <> [] /\
    forall k c, k = i \/ k = j -> nth_error cls0 k = Some c -> listed S (dvars (cl_fac c)) /\ (forall s, In s S -> ~ In s (dkeys (cl_spec c))) /\
      forall i' j' T, dget d (i', j') = Some T -> k = i' \/ k = j' -> keeps S T.
Lemma link_sim o d cls0 g ij : in_order cls0 d -> binv cls0 d g -> link_pair (dense_ops o) d g ij = link_pair (aligned_ops o) d g ij /\
  (forall g', link_pair (aligned_ops o) d g ij = Ok g' -> binv cls0 d g').
Proof.
  intros D B. destruct ij as [i j]. unfold link_pair. destruct (dget d (i, j)) as [S|] eqn:E.
  2: { split; [reflexivity|]. intros g' H. injection H as <-. exact B. }
  destruct (D i j S E) as (Hne & Hs).
  destruct (py_assert (0 <? length S)) as [u0|er]; [|split; [reflexivity|discriminate]]. cbn [bind].
  destruct (py_nth (g_cl g) i) as [ci|er] eqn:Ei; [|split; [reflexivity|discriminate]].
  destruct (py_nth (g_cl g) j) as [cj|er] eqn:Ej; [|split; [reflexivity|discriminate]].
  apply py_nth_inv in Ei, Ej. cbn [bind]. unfold add_neighbour.
  destruct (py_assert (0 <? length S)) as [u1|er]; [|split; [reflexivity|discriminate]]. cbn [bind].
  set (ci1 := {| cl_fac := cl_fac ci |}). set (cj1 := {| cl_fac := cl_fac cj |}).
  assert (G : forall k c nid, (k = i \/ k = j) -> nth_error (g_cl g) k = Some c ->
    cinv {| cl_fac := cl_fac c; cl_id := cl_id c; cl_seps := dset (cl_seps c) nid S; cl_recv := cl_recv c;
            cl_out := cl_out c; cl_spec := cl_spec c |} /\ cl_recv c = [] /\
    (forall n T, dget (dset (cl_seps c) nid S) n = Some T -> exists a b, dget d (a, b) = Some T /\ (k = a \/ k = b)) /\
    exists c0, nth_error cls0 k = Some c0 /\ cl_fac c = cl_fac c0 /\ cl_spec c = cl_spec c0).
  { intros k c nid Hk Hc. destruct (bi_cl _ _ _ B k c Hc) as ([A1 A2 AK A3 A4] & B2 & BS & c0 & B3 & B4 & B5).
    assert (Pr : forall n T, dget (dset (cl_seps c) nid S) n = Some T -> exists a b, dget d (a, b) = Some T /\ (k = a \/ k = b)).
    { intros n T H. destruct (eq_dec n nid) as [->|N].
      - rewrite dget_dset_eq in H. injection H as <-. exists i, j. auto.
      - rewrite dget_dset_ne in H by exact N. eauto. }
    split; [|split; [exact B2|split; [exact Pr|eauto]]]. split; cbn; auto.
    - intros n T H. destruct (Pr n T H) as (a & b & Hd & Hab). destruct (D a b T Hd) as (N1 & N2).
      destruct (N2 k c0) as (N3 & N4 & _); [tauto|exact B3|]. rewrite B4, B5. auto.
    - intros n T n' T' H H'. destruct (Pr n T H) as (a & b & Hd & Hab). destruct (Pr n' T' H') as (a' & b' & Hd' & Hab').
      destruct (D a b T Hd) as (N1 & N2). destruct (N2 k c0) as (N3 & N4 & N5); [tauto|exact B3|]. exact (N5 a' b' T' Hd' Hab').
    - intros n f H. rewrite B2 in H. discriminate. }
  destruct (G i ci (cl_id cj) (or_introl eq_refl) Ei) as (I1 & I2 & IS & I3).
  destruct (G j cj (cl_id ci) (or_intror eq_refl) Ej) as (J1 & J2 & JS & J3).
  fold ci1 in I1. fold cj1 in J1. unfold new_path.
  destruct (make_sim o ci1 (cl_id cj1) I1) as [M1 _]. destruct (make_sim o cj1 (cl_id ci1) J1) as [M2 _]. rewrite M1, M2.
  split; [reflexivity|]. intros g' H. repeat (apply bind_ok in H; destruct H as (? & ? & H)). injection H as <-.
  repeat match goal with L : list_set _ _ _ = Ok _ |- _ => destruct (list_set_inv _ _ _ _ L) as (? & ? & ?); clear L end.
  split; cbn [g_cl].
  - rewrite <- (bi_len _ _ _ B). congruence.
  - intros k c Hc.
    match goal with N2 : forall _, nth_error ?l2 _ = _, K : nth_error ?l2 k = Some c |- _ => rewrite N2 in K end.
    destruct (Nat.eq_dec k j) as [->|Nj].
    + injection Hc as <-. cbn. split; [destruct J1; split; assumption|auto].
    + match goal with N2 : forall _, nth_error ?l2 _ = _, K : nth_error ?l2 k = Some c |- _ => rewrite N2 in K end.
      destruct (Nat.eq_dec k i) as [->|Ni]; [|now apply (bi_cl _ _ _ B)].
      injection Hc as <-. cbn. split; [destruct I1; split; assumption|auto].
Qed.
End Sim.
