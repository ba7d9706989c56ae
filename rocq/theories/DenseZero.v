(** A message with a zero cannot be sent twice over dense tables. *)
From Verif Require Export DenseGraphEx.
Local Open Scope string_scope.
Local Open Scope nat_scope.
Local Open Scope list_scope.

Lemma lp_zero x : is_lp x -> (pot x = 0%R <-> x = NInf).
Proof.
  destruct x as [|a| |]; cbn; intros H; try contradiction; split; auto; try discriminate.
  intros E. pose proof (exp_pos a). lra.
Qed.
(** Cancelling by a table with fewer axes when the two share a zero. *)
Lemma cancel_zero a b x e : wf_dense a -> wf_dense b -> dvars a = x ++ dvars b -> x <> [] -> d_cards_agree a b ->
  d_in_range a e -> dpot a e = 0%R -> dpot b e = 0%R -> d_cancel a b = Err IndexError.
Proof.
  intros A B Hv Hx Hc He Za Zb.
  assert (Eb : d_in_range b e).
  { intros v c H. apply He. apply d_has_card_iff in H; [|apply B]. destruct H as [Iv ->].
    assert (Ia : In v (dvars a)) by (rewrite Hv; apply in_or_app; auto).
    assert (H1 : d_has_card a v (d_card_of a v)) by (apply d_has_card_of; [apply A|exact Ia]).
    assert (H2 : d_has_card b v (d_card_of b v)) by (apply d_has_card_of; [apply B|exact Iv]).
    now rewrite <- (Hc v _ _ H1 H2). }
  apply lp_zero in Za; [|now apply (wd_vals a A)]. apply lp_zero in Zb; [|now apply (wd_vals b B)].
  assert (Sb : map (d_card_of a) (dvars b) = map (d_card_of b) (dvars b)).
  { apply map_ext_in. intros v Iv. apply (Hc v); apply d_has_card_of; try apply A; try apply B; auto. rewrite Hv. apply in_or_app; auto. }
  assert (Sa : tshape (dtens a) = map (d_card_of a) x ++ tshape (dtens b)).
  { rewrite (d_shape a A), (d_shape b B), Hv, map_app, Sb. reflexivity. }
  unfold d_cancel, tbin. rewrite Sa, broadcast_trailing. cbn [bind]. set (mask := {| tshape := _; tget := _ |}).
  assert (Hin : In (map e (dvars a)) (filter (tget mask) (tindices mask))).
  { apply filter_In. assert (Ia : In (map e (dvars a)) (tindices (dtens a))) by (apply d_env_index; [apply A|exact He]).
    split.
    - unfold tindices in *. cbn [mask tshape]. now rewrite <- Sa.
    - cbn [mask tget]. apply andb_true_iff. unfold tindices in Ia. apply In_assignments in Ia. split.
      + assert (Q : bindex (tshape (dtens b)) (map e (dvars a)) = map e (dvars b)).
        { pose proof (d_env_index b e (wd_s b B) Eb) as Ib. unfold tindices in Ib. apply In_assignments in Ib.
          unfold bindex. rewrite map_length, Hv, app_length, (ws_ndim b (wd_s b B)).
          replace (length x + length (dvars b) - length (dvars b)) with (length (map e x)) by (rewrite map_length; lia).
          rewrite map_app, skipn_app, Nat.sub_diag, skipn_all. cbn [app skipn].
          pose proof (bindex_in_range _ _ Ib) as R. unfold bindex in R. rewrite map_length, (ws_ndim b (wd_s b B)), Nat.sub_diag in R. exact R. }
        rewrite Q. unfold dval in Zb. now rewrite Zb.
      + rewrite <- Sa, bindex_in_range by exact Ia. unfold dval in Za. now rewrite Za. }
  assert (Hall : forall k, In k (filter (tget mask) (tindices mask)) -> length (tshape (dtens b)) < length k).
  { intros k Hk. apply filter_In in Hk. destruct Hk as [Hk _]. unfold tindices in Hk. cbn [mask tshape] in Hk. apply In_assignments in Hk.
    rewrite (Forall2_length _ _ _ Hk), app_length, map_length. destruct x; [congruence|]. cbn. lia. }
  unfold tset_where. destruct (filter (tget mask) (tindices mask)) as [|k l]; [destruct Hin|].
  assert (Hm : Nat.eqb (ndim mask) 0 = false).
  { apply Nat.eqb_neq. unfold ndim. cbn [mask tshape]. rewrite app_length, map_length. destruct x; [congruence|]. cbn. lia. }
  rewrite Hm. cbn [foldM]. unfold tset at 1. specialize (Hall k (or_introl eq_refl)).
  assert (Q : Nat.leb (length k) (ndim (dtens b)) = false) by (apply Nat.leb_gt; unfold ndim; lia).
  rewrite Q. reflexivity.
Qed.

Section Zero.
Variable card : string -> nat.
Variable nm : string -> list aname.
(** A table whose axes and assignment names follow [card] and [nm]; zeros allowed. *)
Record dok (f : dense) : Prop := {
  dk_wf : wf_dense f;
  dk_card : forall v c, d_has_card f v c -> c = card v;
  dk_names : forall v ns, dget (dnames f) v = Some ns -> ns = nm v }.
Lemma dk_agree f g : dok f -> dok g -> d_cards_agree f g.
Proof. intros [_ F _] [_ G _] v c c' H1 H2. now rewrite (F v c H1), (G v c' H2). Qed.
Lemma dk_nagree f g : dok f -> dok g -> names_agree f g.
Proof. intros [_ _ F] [_ _ G] v n n' H1 H2. now rewrite (F v n H1), (G v n' H2). Qed.
Lemma dk_range f e : dok f -> (d_in_range f e <-> forall v, In v (dvars f) -> e v < card v).
Proof.
  intros [W F _]. split; intros H v.
  - intros Hv. pose proof (d_has_card_of f v (wd_s f W) Hv) as C. rewrite <- (F v _ C). now apply H.
  - intros c Hc. rewrite (F v c Hc). apply H. apply d_has_card_iff in Hc; [tauto|apply W].
Qed.
Lemma mul_ok a b : dok a -> dok b -> exists r, d_multiply a b = Ok r /\ dok r /\
  (forall v, In v (dvars r) <-> In v (dvars a) \/ In v (dvars b)) /\
  (forall e, d_in_range r e -> dpot r e = (dpot a e * dpot b e)%R).
Proof.
  intros A B. destruct (d_multiply_spec a b (dk_wf a A) (dk_wf b B) (dk_agree a b A B) (dk_nagree a b A B)) as (r & H & W & V & C & N & P).
  exists r. split; [exact H|]. split; [|split; [exact V|intros e He; apply P, He]].
  split; [exact W| |]; intros v c Hv.
  - apply C in Hv. destruct Hv as [Hv|Hv]; [now apply (dk_card a A)|now apply (dk_card b B)].
  - apply N in Hv. destruct Hv as [Hv|Hv]; [now apply (dk_names a A)|now apply (dk_names b B)].
Qed.
(** Receiving a second message from a neighbour whose first message has a zero that is also
    a zero of the cluster potential. *)
Lemma resend_zero o (c : cluster dense nat) m prev w e : dok (cl_fac c) -> dok (m_fac m) -> dok prev ->
  m_rcv m = cl_id c -> dget (cl_recv c) (m_snd m) = Some prev -> dvars prev = dvars (m_fac m) ->
  listed (dvars (m_fac m)) (dvars (cl_fac c)) -> In w (dvars (cl_fac c)) -> ~ In w (dvars (m_fac m)) ->
  d_in_range (cl_fac c) e -> dpot (cl_fac c) e = 0%R -> dpot prev e = 0%R ->
  receive_message (dense_ops o) c m = Err IndexError.
Proof.
  intros C M P Hr Hd Vp Ls Iw Nw He Z1 Z2. unfold receive_message.
  assert (Q : eqb (m_rcv m) (cl_id c) = true) by (now apply eqb_true). rewrite Q. cbn [py_assert bind dense_ops f_mul f_cancel].
  destruct (mul_ok _ _ C M) as (r & H1 & R & V & Pr). rewrite H1. cbn [bind]. rewrite Hd.
  pose proof (multiply_moved _ _ r Ls H1) as Vx. unfold moved in Vx. set (x := filter _ (dvars (cl_fac c))) in Vx.
  assert (Hw : In w (dvars r)) by (apply V; auto).
  assert (Hx : x <> []) by (intros E; rewrite E in Vx; rewrite Vx in Hw; contradiction).
  assert (Er : d_in_range r e).
  { apply (dk_range r e R). intros v Hv. pose proof (proj1 (dk_range _ e C) He) as K. apply V in Hv. destruct Hv as [Hv|Hv]; [auto|].
    apply K. now apply (listed_In (dvars (m_fac m))). }
  rewrite (cancel_zero r prev x e (dk_wf r R) (dk_wf prev P)); auto.
  - now rewrite Vp.
  - now apply dk_agree.
  - rewrite (Pr e Er), Z1. ring.
Qed.
End Zero.

(** ** Two tables sharing one variable *)
Definition tb (vars : list string) (shape : list nat) (w : list nat -> val) : dense :=
  {| dvars := vars; dtens := {| tshape := shape; tget := w |}; dcards := shape; dnames := names_default vars shape |}.
Lemma tb_ok card vars w : NoDup vars -> (forall k, is_lp (w k)) -> dok card (std_names card) (tb vars (map card vars) w).
Proof.
  intros Hn Hw. pose proof (dtab_wf vars (map card vars) [] Hn (map_length _ _) (fun k v H => match H with end)) as [[W1 W2 W3 W4 W5] _].
  cbn [dtab dvars dtens dcards dnames tshape] in *.
  assert (C : forall v c, In (v, c) (combine vars (map card vars)) -> c = card v).
  { intros v c. clear. induction vars as [|x l IH]; cbn; [tauto|]. intros [E|E]; [now inversion E|auto]. }
  split.
  - split; [split; assumption|]. intros e He. apply Hw.
  - exact C.
  - intros v ns H. cbn [tb dnames] in H. apply dget_In in H. unfold names_default in H.
    assert (K : NoDup (dkeys (map (fun vc : string * nat => (fst vc, map AInt (seq 0 (snd vc)))) (combine vars (map card vars))))).
    { unfold dkeys. rewrite map_map. cbn [fst]. change (map (fun x : string * nat => fst x) (combine vars (map card vars))) with (dkeys (combine vars (map card vars))).
      rewrite dkeys_combine by (now rewrite map_length). exact Hn. }
    rewrite (dict_of_NoDup _ K) in H. apply in_map_iff in H. destruct H as ([x c] & E & Hx). cbn in E. inversion E; subst.
    unfold std_names. now rewrite (C _ _ Hx).
Qed.
Definition ln_scopes : list (list string) := [["a"; "b"]; ["b"; "c"]].
Lemma ln_sep o : oracle_ok o -> dget (rip_sepsets o ln_scopes []) (0, 1) = Some ["b"].
Proof.
  intros Ho. rewrite rip_lookup. unfold sep_vars, unique_vars.
  assert (N : NoDup (dedup (concat ln_scopes))) by (cbn; nodups).
  pose proof (so_perm o _ Ho N) as P. apply (perm_filter_mono (fun v => mem (0, 1) (var_edges ln_scopes [] v))) in P.
  change (filter _ (dedup (concat ln_scopes))) with ["b"] in P.
  apply Permutation_length_1_inv in P. rewrite P. reflexivity.
Qed.
Definition ln (card : string -> nat) (w0 w1 : list nat -> val) : list dense :=
  [tb ["a"; "b"] (map card ["a"; "b"]) w0; tb ["b"; "c"] (map card ["b"; "c"]) w1].
Definition ln_c0 (card : string -> nat) w0 : cluster dense nat :=
  {| cl_fac := tb ["a"; "b"] (map card ["a"; "b"]) w0; cl_id := cluster_id 0 ["a"; "b"];
     cl_seps := [(cluster_id 1 ["b"; "c"], ["b"])]; cl_recv := []; cl_out := []; cl_spec := [] |}.
Definition ln_c1 (card : string -> nat) w1 : cluster dense nat :=
  {| cl_fac := tb ["b"; "c"] (map card ["b"; "c"]) w1; cl_id := cluster_id 1 ["b"; "c"];
     cl_seps := [(cluster_id 0 ["a"; "b"], ["b"])]; cl_recv := []; cl_out := []; cl_spec := [] |}.
Lemma ln_graph o card w0 w1 : oracle_ok o ->
  mk_graph (dense_ops o) o (ln card w0 w1) None [] =
  (let* pij := new_path (dense_ops o) (ln_c0 card w0) (ln_c1 card w1) 0 1 in
   let* pji := new_path (dense_ops o) (ln_c1 card w1) (ln_c0 card w0) 1 0 in
   Ok {| g_cl := [add_out (ln_c0 card w0) 0; add_out (ln_c1 card w1) 1]; g_paths := [pij; pji]; g_order := [0; 1];
         g_spec := []; g_passed := 0; g_dists := [] |}).
Proof.
  intros Ho. pose proof (ln_sep o Ho) as H. unfold mk_graph. change (evidence_reduce (dense_ops o) (ln card w0 w1) None) with (@Ok (list dense) (ln card w0 w1)). cbn [bind].
  change (absorb_subsets (dense_ops o) (ln card w0 w1)) with (@Ok (list dense) (ln card w0 w1)). cbn [bind].
  unfold build_graph. change (map (fun c : cluster dense nat => f_vars (dense_ops o) (cl_fac c)) (map (new_cluster (dense_ops o) []) (enum (ln card w0 w1)))) with ln_scopes.
  change (all_evidence (@None (dict string nat)) []) with (@nil string).
  set (d := rip_sepsets o ln_scopes []) in *. clearbody d.
  change (length (map (new_cluster (dense_ops o) []) (enum (ln card w0 w1)))) with 2. change (pairs 2) with [(0, 1)].
  change (raise_if _ ValueError) with (@Ok unit tt). cbn [bind foldM]. unfold link_pair at 1. rewrite H.
  change (py_assert (Nat.ltb 0 (length ["b"]))) with (@Ok unit tt). cbn [bind].
  match goal with |- _ = ?r => transitivity (let* g := r in Ok g); [reflexivity|] end.
  destruct (new_path (dense_ops o) (ln_c0 card w0) (ln_c1 card w1) 0 1) as [pij|er]; [|reflexivity]. cbn [bind].
  destruct (new_path (dense_ops o) (ln_c1 card w1) (ln_c0 card w0) 1 0); reflexivity.
Qed.
(** The message over a shared variable of cardinality one loses its axis. *)
Definition ln_thin (v : string) : nat := if string_dec v "b" then 1 else 2.
Lemma thin_raises o : oracle_ok o -> mk_graph (dense_ops o) o (ln ln_thin (fun _ => Fin 0) (fun _ => Fin 0)) None [] = Err ValueError.
Proof. intros Ho. rewrite (ln_graph o _ _ _ Ho). reflexivity. Qed.

Lemma thin_ok f : In f (ln ln_thin (fun _ => Fin 0) (fun _ => Fin 0)) -> dok ln_thin (std_names ln_thin) f /\ forall e, (0 < dpot f e)%R.
Proof. intros [<-|[<-|[]]]; (split; [apply tb_ok; [nodups|intros k; exact I]|]); intros e; unfold dpot, dval; cbn; apply exp_pos. Qed.

(** The message of a cluster over one variable, zeros allowed. *)
Lemma plain_message card nm o (c : cluster dense nat) nid s : dok card nm (cl_fac c) -> (forall v, In v (dvars (cl_fac c)) -> 2 <= card v) ->
  cl_spec c = [] -> dget (cl_seps c) nid = Some [s] -> In s (dvars (cl_fac c)) ->
  (dget (cl_recv c) nid = None \/ exists prev, dget (cl_recv c) nid = Some prev /\ dok card nm prev /\ dvars prev = [s] /\
     forall e, (forall v, In v (dvars (cl_fac c)) -> e v < card v) -> dpot prev e = 0%R -> dpot (cl_fac c) e = 0%R) ->
  exists r, make_message (dense_ops o) c nid = Ok {| m_fac := r; m_snd := cl_id c; m_rcv := nid |} /\ dok card nm r /\ dvars r = [s] /\
    (forall removed e, NoDup removed -> (forall v, In v removed <-> In v (dvars (cl_fac c)) /\ v <> s) -> e s < card s ->
       let M := sum_over card removed (dpot (cl_fac c)) e in
       match dget (cl_recv c) nid with
       | None => dpot r e = M
       | Some prev => (dpot prev e <> 0 -> dpot r e = M / dpot prev e)%R /\ (dpot prev e = 0 -> dpot r e = 0)%R
       end).
Proof.
  intros D H2 Hsp Hs Is Hrc. set (f := cl_fac c) in *. unfold make_message, dget_r. rewrite Hs, Hsp. cbn [bind dkeys dvals map dense_ops f_reduce f_marg f_cancel].
  change (map Z.of_nat []) with (@nil Z). fold f.
  destruct (d_reduce_spec f [] [] (dk_wf _ _ _ D) (NoDup_nil _) eq_refl) as (f1 & R1 & R2 & R3 & R4 & R5 & R6); [intros v z k []|].
  rewrite R1. cbn [bind].
  assert (V1 : dvars f1 = dvars f). { rewrite R3. clear. induction (dvars f) as [|x l IH]; [reflexivity|]. cbn [filter mem existsb negb]. now f_equal. }
  assert (D1 : dok card nm f1).
  { split; [exact R2| |]; intros v x Hv; [apply R4 in Hv; apply (dk_card _ _ _ D)|apply R5 in Hv; apply (dk_names _ _ _ D)]; tauto. }
  pose proof (ws_vars f (dk_wf _ _ _ D)) as Nf.
  assert (Fl : [s] = filter (fun v => mem v [s]) (dvars f1)) by (rewrite V1; symmetry; now apply filter_one).
  destruct (d_marginalize_spec o f1 [s] true [s] R2 eq_refl Fl) as (f2 & M1 & M2 & M3 & M4 & M5 & M6).
  { intros v k Hk [<-|[]] ->. pose proof (dk_card _ _ _ D1 _ _ Hk). specialize (H2 s Is). lia. }
  { intros v k Hk _ ->. pose proof (dk_card _ _ _ D1 _ _ Hk). apply d_has_card_iff in Hk; [|apply R2]. destruct Hk as [Hk _]. rewrite V1 in Hk. specialize (H2 v Hk). lia. }
  rewrite M1. cbn [bind].
  assert (D2 : dok card nm f2).
  { split; [exact M2| |]; intros v x Hv; [apply M4 in Hv; apply (dk_card _ _ _ D1)|apply M5 in Hv; apply (dk_names _ _ _ D1)]; tauto. }
  assert (P2 : forall removed e, NoDup removed -> (forall v, In v removed <-> In v (dvars f) /\ v <> s) -> e s < card s ->
    dpot f2 e = sum_over card removed (dpot f) e).
  { intros removed e Nr Hr Hes. rewrite (M6 e removed).
    - rewrite (sum_over_ext_card (d_card_of f1) card).
      + apply sum_over_ext_g. intros e'. unfold dpot. rewrite R6; [reflexivity|]. intros v z [].
      + intros v Hv. apply (dk_card _ _ _ D1). apply d_has_card_of; [apply R2|]. rewrite V1. now apply Hr.
    - apply (dk_range card nm f2 e D2). intros v Hv. rewrite M3 in Hv. destruct Hv as [<-|[]]. exact Hes.
    - exact Nr.
    - intros v. rewrite V1, Hr. split; intros [I1 I2]; (split; [exact I1|]); [intros [E|[]]; congruence|intros E; apply I2; left; congruence]. }
  destruct Hrc as [Hn|(prev & Hp & Dp & Vp & Zp)].
  - rewrite Hn. cbn [bind]. exists f2. auto.
  - rewrite Hp. set (rest := remove string_dec s (dvars f)).
    assert (Nrest : NoDup rest).
    { unfold rest. clear - Nf. induction (dvars f) as [|x l IH]; cbn; [constructor|]. inversion Nf; subst. destruct (string_dec s x); [auto|].
      constructor; [|auto]. intros I. apply in_remove in I. tauto. }
    assert (Irest : forall v, In v rest <-> In v (dvars f) /\ v <> s).
    { intros v. unfold rest. split; [apply in_remove|]. intros [I1 I2]. now apply in_in_remove. }
    destruct (d_cancel_same_vars f2 prev M2 (dk_wf _ _ _ Dp)) as (r & C1 & C2 & C3 & C4 & C5 & C6).
    + now rewrite M3, Vp.
    + rewrite M3. discriminate.
    + exact (dk_agree card nm _ _ D2 Dp).
    + exact (dk_nagree card nm _ _ D2 Dp).
    + intros e He Z. rewrite (P2 rest e Nrest Irest).
      * rewrite (sum_over_ext_range card rest (dpot f) (fun _ => 0%R)); [rewrite sum_over_assign; apply Rsum_zero; reflexivity|]. intros e' K O. apply Zp.
        { intros v Hv. destruct (string_dec v s) as [->|Nv].
          - rewrite O by (rewrite Irest; tauto). apply (proj1 (dk_range card nm f2 e D2) He). rewrite M3. left; reflexivity.
          - apply K. apply Irest. auto. }
        { rewrite <- Z. unfold dpot, dval. rewrite Vp. cbn. rewrite O by (rewrite Irest; tauto). reflexivity. }
      * apply (proj1 (dk_range card nm f2 e D2) He). rewrite M3. left; reflexivity.
    + rewrite C1. cbn [bind]. exists r. split; [reflexivity|].
      assert (Dr : dok card nm r).
      { split; [exact C2| |]; intros v x Hv; [apply C3 in Hv; now apply (dk_card _ _ _ D2)|apply C4 in Hv; now apply (dk_names _ _ _ D2)]. }
      split; [exact Dr|]. split.
      * apply singleton_eq; [apply (ws_vars r C2)|]. intros v. rewrite <- M3.
        split; intros Hv; [pose proof (d_has_card_of r v (wd_s r C2) Hv) as K; apply C3 in K; apply d_has_card_iff in K; [tauto|apply M2]|].
        pose proof (d_has_card_of f2 v (wd_s f2 M2) Hv) as K. apply C3 in K. apply d_has_card_iff in K; [tauto|apply C2].
      * intros removed e Nr Hr Hes. cbn zeta. rewrite <- (P2 removed e Nr Hr Hes).
        assert (I2 : d_in_range f2 e) by (apply (dk_range card nm f2 e D2); rewrite M3; intros v [<-|[]]; exact Hes).
        split; [apply C5, I2|apply C6, I2].
Qed.

(** ** A table with an impossible value of the shared variable *)
Definition zr_ab (k : list nat) : val := match k with [_; 2] => NInf | _ => Fin 0 end.
Definition zr_bc (_ : list nat) : val := Fin 0.
Definition zr : list dense := ln dx_card zr_ab zr_bc.
Definition zr_env : env := fun v => if string_dec v "b" then 2 else 0.
Lemma zr_ok f : In f zr -> dok dx_card dx_nm f.
Proof.
  intros [<-|[<-|[]]]; (apply tb_ok; [nodups|]); intros k; [|exact I]. unfold zr_ab.
  destruct k as [|x [|[|[|[|y]]] [|? ?]]]; exact I.
Qed.
Lemma dx_two v : 2 <= dx_card v.
Proof. unfold dx_card. destruct (string_dec v "b"); lia. Qed.
Lemma dok_gain r s e : dok dx_card dx_nm r -> dvars r = [s] -> e s < dx_card s -> (0 < dpot r e)%R -> exists d, d_distance_from_vacuous r = Ok d.
Proof.
  intros D V He P. assert (W : (0 < d_weight_of r)%R).
  { unfold d_weight_of. destruct (Rle_lt_or_eq_dec 0 (sum_over (d_card_of r) (dvars r) (dpot r) (fun _ => 0))) as [H|H].
    - apply sum_over_nonneg. intros e'. unfold dpot. destruct (dval r e'); cbn; try lra. left; apply exp_pos.
    - exact H.
    - exfalso. rewrite V in H. assert (C : d_card_of r s = dx_card s).
      { apply (dk_card _ _ _ D). apply d_has_card_of; [apply (dk_wf _ _ _ D)|]. rewrite V. left; reflexivity. }
      assert (Z : dpot r e = 0%R); [|lra].
      transitivity (dpot r (upd (fun _ => 0) s (e s))); [unfold dpot, dval; rewrite V; cbn; now rewrite upd_same|].
      cbn [sum_over] in H. symmetry in H. rewrite C in H.
      refine (Rsum_zero_all _ _ _ H (e s) _); [|apply in_seq; lia].
      intros i _. unfold dpot. destruct (dval r (upd (fun _ => 0) s i)); cbn; try lra. left; apply exp_pos. }
  destruct (d_vacuous_spec r (dk_wf _ _ _ D) W) as (H & _). eauto.
Qed.
Lemma path2 {F V} (g : cgraph F V) : (forall i j, linked g i j <-> In (i, j) [(0, 1); (1, 0)]) -> length (g_cl g) = 2 -> tree_shaped g.
Proof.
  intros HE Hl. split.
  - unfold connected. rewrite Hl.
    assert (S1 : clos_refl_trans nat (linked g) 0 1) by (apply rt_step, HE; cbn; tauto).
    assert (S2 : clos_refl_trans nat (linked g) 1 0) by (apply rt_step, HE; cbn; tauto).
    intros i j Hi Hj. destruct i as [|[|i]], j as [|[|j]]; try lia; auto; apply rt_refl.
  - intros l (H1 & H2 & H3 & H4). destruct l as [|x [|y [|z rest]]]; cbn in H1; try lia.
    assert (A : linked g x y) by (apply (H3 0); reflexivity). assert (B : linked g y z) by (apply (H3 1); reflexivity).
    inversion H2 as [|? ? N1 N2]; subst. cbn in N1. apply HE in A, B. cbn in A, B. intuition congruence.
Qed.
Lemma zr_raises o : oracle_ok o -> exists g g1, mk_graph (dense_ops o) o zr None [] = Ok g /\ tree_shaped g /\
  pass_path (dense_ops o) g 0 = Ok g1 /\ pass_path (dense_ops o) g1 0 = Err IndexError.
Proof.
  intros Ho. unfold zr. rewrite (ln_graph o _ _ _ Ho).
  set (c0 := ln_c0 dx_card zr_ab). set (c1 := ln_c1 dx_card zr_bc).
  assert (K0 : dok dx_card dx_nm (cl_fac c0)) by (apply (zr_ok (cl_fac c0)); left; reflexivity).
  assert (K1 : dok dx_card dx_nm (cl_fac c1)) by (apply (zr_ok (cl_fac c1)); right; left; reflexivity).
  destruct (plain_message dx_card dx_nm o c0 (cl_id c1) "b" K0 (fun v _ => dx_two v) eq_refl eq_refl) as (m01 & M1 & M2 & M3 & M4).
  { right; left; reflexivity. }
  { left; reflexivity. }
  destruct (plain_message dx_card dx_nm o c1 (cl_id c0) "b" K1 (fun v _ => dx_two v) eq_refl eq_refl) as (m10 & N1 & N2 & N3 & N4).
  { left; reflexivity. }
  { left; reflexivity. }
  assert (A0 : forall e, e "b" < 3 -> dpot m01 e = (if Nat.eqb (e "b") 2 then 0 else 2)%R).
  { intros e He. pose proof (M4 ["a"] e) as Q. cbn [c0 cl_recv ln_c0 dget] in Q. rewrite Q.
    - clear - He. cbn -[zr_ab Nat.eqb]. unfold dpot, dval. cbn -[zr_ab Nat.eqb]. unfold upd. cbn -[zr_ab Nat.eqb].
      destruct (e "b") as [|[|[|x]]]; [| | |lia]; cbn; rewrite ?exp_0; lra.
    - nodups.
    - cbn. intros v. split; [intros [<-|[]]; split; [tauto|discriminate]|intuition congruence].
    - exact He. }
  assert (A1 : forall e, e "b" < 3 -> dpot m10 e = 2%R).
  { intros e He. pose proof (N4 ["c"] e) as Q. cbn [c1 cl_recv ln_c1 dget] in Q. rewrite Q.
    - cbn. unfold dpot, dval. cbn. rewrite exp_0. lra.
    - nodups.
    - cbn. intros v. split; [intros [<-|[]]; split; [tauto|discriminate]|intuition congruence].
    - exact He. }
  destruct (dok_gain m01 "b" (fun _ => 0) M2 M3) as (d0 & D0); [cbn; lia|rewrite A0 by lia; cbn; lra|].
  destruct (dok_gain m10 "b" (fun _ => 0) N2 N3) as (d1 & D1); [cbn; lia|rewrite A1 by lia; lra|].
  unfold new_path. rewrite M1. cbn [bind]. unfold info_gain at 1. cbn [m_fac dense_ops f_dist]. rewrite D0. cbn [bind].
  rewrite N1. cbn [bind]. unfold info_gain. cbn [m_fac dense_ops f_dist]. rewrite D1. cbn [bind].
  set (g := {| g_cl := _; g_paths := _ |}). exists g.
  destruct (mul_ok dx_card dx_nm _ _ K1 M2) as (f1 & F1 & F2 & F3 & F4).
  set (c1' := {| cl_fac := f1; cl_id := cl_id c1; cl_seps := cl_seps c1; cl_recv := [(cl_id c0, m01)]; cl_out := [1]; cl_spec := [] |} : cluster dense nat).
  assert (Vf : forall v, In v (dvars f1) <-> v = "b" \/ v = "c").
  { intros v. rewrite F3, M3. cbn. intuition auto. }
  assert (B1 : forall e, d_in_range f1 e -> dpot f1 e = (if Nat.eqb (e "b") 2 then 0 else 2)%R).
  { intros e He. rewrite (F4 e He). assert (Hb : e "b" < 3) by (apply (proj1 (dk_range dx_card dx_nm f1 e F2) He); apply Vf; auto).
    rewrite (A0 e Hb). unfold dpot, dval. cbn -[Nat.eqb]. rewrite exp_0. ring. }
  destruct (plain_message dx_card dx_nm o c1' (cl_id c0) "b" F2 (fun v _ => dx_two v) eq_refl eq_refl) as (m10' & P1 & P2 & P3 & P4).
  { apply Vf. auto. }
  { right. exists m01. split; [reflexivity|]. split; [exact M2|]. split; [exact M3|]. intros e He Z. change (cl_fac c1') with f1 in *.
    rewrite (F4 e); [rewrite Z; ring|]. apply (dk_range dx_card dx_nm f1 e F2). exact He. }
  assert (A2 : dpot m10' (fun _ => 0) = 2%R).
  { destruct (P4 ["c"] (fun _ => 0)) as [Q _].
    - nodups.
    - intros v. cbn [c1' cl_fac]. rewrite Vf. cbn. split; [intros [<-|[]]; split; [auto|discriminate]|intuition congruence].
    - cbn. lia.
    - assert (Z : dpot m01 (fun _ => 0) = 2%R) by (rewrite A0 by lia; reflexivity).
      rewrite Q by (rewrite Z; lra). rewrite Z. cbn [sum_over c1' cl_fac]. change (seq 0 (dx_card "c")) with [0; 1]. cbn [map Rsum].
      rewrite !B1; [cbn; lra| |]; apply (dk_range dx_card dx_nm f1 _ F2); intros v Hv; apply Vf in Hv; destruct Hv as [-> | ->]; cbn; lia. }
  destruct (dok_gain m10' "b" (fun _ => 0) P2 P3) as (d2 & D2); [cbn; lia|rewrite A2; lra|].
  set (g1 := {| g_cl := [add_out c0 0; c1'];
     g_paths := [{| p_snd := 0; p_rcv := 1; p_prev := Some {| m_fac := m01; m_snd := cl_id c0; m_rcv := cl_id c1 |};
                    p_next := {| m_fac := m01; m_snd := cl_id c0; m_rcv := cl_id c1 |}; p_gain := Fin 0 |};
                 {| p_snd := 1; p_rcv := 0; p_prev := None; p_next := {| m_fac := m10'; m_snd := cl_id c1; m_rcv := cl_id c0 |}; p_gain := d2 |}];
     g_order := [0; 1]; g_spec := []; g_passed := 0; g_dists := [] |} : cgraph dense nat).
  exists g1. split; [reflexivity|]. split; [|split].
  - apply path2; [|reflexivity]. intros i j. split.
    + intros (k & p & Hp & <- & <-). destruct k as [|[|k]]; cbn in Hp; [injection Hp as <-; cbn; auto|injection Hp as <-; cbn; auto|destruct k; discriminate].
    + intros [E|[E|[]]]; inversion E; subst; [exists 0|exists 1]; eexists; (split; [reflexivity|]); auto.
  - unfold pass_path. cbn [g g_paths py_nth nth_error bind p_rcv g_cl p_next].
    unfold receive_message. cbn [m_rcv]. change (eqb (cl_id c1) (cl_id (add_out c1 1))) with true. cbn [py_assert bind dense_ops f_mul f_cancel m_fac].
    change (cl_fac (add_out c1 1)) with (cl_fac c1). rewrite F1. cbn [bind]. change (dget (cl_recv (add_out c1 1)) (m_snd _)) with (@None dense). cbn [bind].
    change (list_set [add_out c0 0; add_out c1 1] 1 _) with (@Ok (list (cluster dense nat)) [add_out c0 0; c1']). cbn [bind].
    match goal with |- context [list_set [?a; ?b] 0 ?x] => change (list_set [a; b] 0 x) with (@Ok (list (path dense)) [x; b]) end. cbn [bind].
    match goal with |- context [foldM (recompute_at ?op ?cs) _ ?ps] => change (foldM (recompute_at op cs) _ ps) with
      (let* q := recompute_at op cs ps 1 in Ok q) end.
    unfold recompute_at. cbn [py_nth nth_error bind]. unfold recompute. cbn [p_snd p_rcv p_prev py_nth nth_error bind].
    change (cl_id (add_out c0 0)) with (cl_id c0). fold (dense_ops o).
    change {| f_vars := dvars; f_mul := d_multiply; f_cancel := d_cancel; f_marg := _; f_reduce := _; f_dist := _; f_kl := _ |} with (dense_ops o).
    rewrite P1. cbn [bind]. unfold info_gain. cbn [m_fac dense_ops f_dist]. rewrite D2. reflexivity.
  - unfold pass_path. cbn [g1 g_paths py_nth nth_error bind p_rcv g_cl p_next].
    rewrite (resend_zero dx_card dx_nm o c1' {| m_fac := m01; m_snd := cl_id c0; m_rcv := cl_id c1 |} m01 "c" zr_env F2 M2 M2 eq_refl eq_refl eq_refl).
    + reflexivity.
    + cbn [m_fac]. rewrite M3. apply listed_one; [exact (ws_vars f1 (dk_wf dx_card dx_nm f1 F2))|]. apply Vf. auto.
    + apply Vf. auto.
    + cbn [m_fac]. rewrite M3. intros [E|[]]. discriminate.
    + apply (dk_range dx_card dx_nm f1 _ F2). intros v Hv. apply Vf in Hv. destruct Hv as [-> | ->]; cbn; lia.
    + change (cl_fac c1') with f1. rewrite B1; [reflexivity|]. apply (dk_range dx_card dx_nm f1 _ F2). intros v Hv. apply Vf in Hv. destruct Hv as [-> | ->]; cbn; lia.
    + rewrite A0; [reflexivity|]. cbn. lia.
Qed.
