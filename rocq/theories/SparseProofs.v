(** Proofs of the sparse arithmetic properties (C01 - C06). *)
From Verif Require Export SparseOps.

Lemma zd_eqb a b : zero_default a -> zero_default b -> veqb (sdef a) (sdef b) = true.
Proof. intros -> ->. reflexivity. Qed.

(** C01 *)
Lemma multiply_val o a b : oracle_ok o -> wf_sparse a -> wf_sparse b ->
  zero_default a -> zero_default b -> cards_agree a b ->
  exists r, s_multiply o a b = Ok r /\ wf_sparse r /\ zero_default r /\
    svars r = b_vars o a b /\
    (forall v c, has_card r v c <-> has_card a v c \/ has_card b v c) /\
    (forall e, sval r e = vadd (sval a e) (sval b e)).
Proof.
  intros Ho Ha Hb Za Zb Hc.
  destruct (binop_any o a b vadd Ho Ha Hb Hc (zd_eqb a b Za Zb)) as (r & Hr & Hres).
  exists r. split; [exact Hr|].
  assert (Hlp : forall e, is_lp (vadd (sval a e) (sval b e))).
  { intros e. apply pot_vadd; apply sval_lp; auto; now apply zd_lp. }
  split; [apply (binop_wf o a b _ r _ Ho Ha Hb Hres); auto|].
  split; [unfold zero_default; rewrite (br_def _ _ _ _ _ _ Hres), Za; reflexivity|].
  split; [apply (br_vars _ _ _ _ _ _ Hres)|].
  split; [apply (b_card_has o a b r Ho Ha Hb Hc (br_vars _ _ _ _ _ _ Hres) (br_cards _ _ _ _ _ _ Hres))|].
  intros e. apply (binop_any_val o a b _ _ Ho Ha Hb (zd_eqb a b Za Zb) Hres).
  - intros _. rewrite Za. pose proof (sval_lp b e Hb (zd_lp b Zb)) as H.
    destruct (sval b e); cbn in *; tauto.
  - intros _. rewrite Za. pose proof (sval_lp a e Ha (zd_lp a Za)) as H.
    destruct (sval a e); cbn in *; tauto.
Qed.

Lemma multiply_spec o a b : oracle_ok o -> wf_sparse a -> wf_sparse b ->
  zero_default a -> zero_default b -> cards_agree a b ->
  exists r, s_multiply o a b = Ok r /\ wf_sparse r /\ zero_default r /\
    (forall v, In v (svars r) <-> In v (svars a) \/ In v (svars b)) /\
    (forall v c, has_card r v c <-> has_card a v c \/ has_card b v c) /\
    (forall e, spot r e = (spot a e * spot b e)%R).
Proof.
  intros Ho Ha Hb Za Zb Hc.
  destruct (multiply_val o a b Ho Ha Hb Za Zb Hc) as (r & Hr & Hw & Hz & Hv & Hcs & He).
  exists r. split; [exact Hr|]. split; [exact Hw|]. split; [exact Hz|].
  split; [intros v; rewrite Hv; now apply In_b_vars|]. split; [exact Hcs|].
  intros e. unfold spot. rewrite He. apply pot_vadd; apply sval_lp; auto; now apply zd_lp.
Qed.

(** C02 *)
Lemma multiply_default_same_scope o a b : oracle_ok o -> wf_sparse a -> wf_sparse b ->
  cards_agree a b -> sdef a = sdef b -> is_lp (sdef a) ->
  (forall v, In v (svars a) <-> In v (svars b)) -> stbl a <> [] -> stbl b <> [] ->
  exists r, s_multiply o a b = Ok r /\ wf_sparse r /\
    (forall v, In v (svars r) <-> In v (svars a)) /\
    (forall e, spot r e = (spot a e * spot b e)%R).
Proof.
  intros Ho Ha Hb Hc Hd Hlp Hsc Hna Hnb.
  assert (Hde : veqb (sdef a) (sdef b) = true).
  { rewrite <- Hd. apply veqb_refl. intros C. rewrite C in Hlp. exact Hlp. }
  destruct (binop_any o a b vadd Ho Ha Hb Hc Hde) as (r & Hr & Hres).
  assert (Hal : forall e, is_lp (vadd (sval a e) (sval b e))).
  { intros e. apply pot_vadd; apply sval_lp; auto. congruence. }
  exists r. split; [exact Hr|]. split; [apply (binop_wf o a b _ r _ Ho Ha Hb Hres); auto|].
  split. { intros v. rewrite (br_vars _ _ _ _ _ _ Hres), (In_b_vars o a b Ho). firstorder. }
  assert (Hra : b_rema o a b = []).
  { destruct (b_rema o a b) as [|x l] eqn:E; [reflexivity|].
    assert (H : In x (b_rema o a b)) by (rewrite E; left; reflexivity).
    apply (In_b_rema o a b Ho) in H. exfalso. firstorder. }
  assert (Hrb : b_remb o a b = []).
  { destruct (b_remb o a b) as [|x l] eqn:E; [reflexivity|].
    assert (H : In x (b_remb o a b)) by (rewrite E; left; reflexivity).
    apply (In_b_remb o a b Ho) in H. exfalso. firstorder. }
  intros e. unfold spot. rewrite (br_in _ _ _ _ _ _ Hres).
  - apply pot_vadd; apply sval_lp; auto. congruence.
  - rewrite Hra, Hrb. unfold present. split.
    + destruct (stbl a) as [|[k v] t]; [congruence|]. exists k, v. split; [left; reflexivity|reflexivity].
    + destruct (stbl b) as [|[k v] t]; [congruence|]. exists k, v. split; [left; reflexivity|reflexivity].
Qed.

Definition one_entry (x : string) (d : val) : sparse :=
  {| svars := [x]; scards := [2]; stbl := [([0], Fin 0)]; sdef := d |}.
Lemma one_entry_wf x d : wf_sparse (one_entry x d).
Proof.
  split; [split|]; cbn.
  - repeat constructor; intros [].
  - reflexivity.
  - intros k v [H|[]]. injection H as <- <-. repeat constructor.
  - repeat constructor; intros [].
  - intros k v [H|[]]. injection H as <- <-. exact I.
Qed.
Lemma env_of_single x i : env_of [x] [i] x = i.
Proof. unfold env_of. cbn [index_opt]. destruct (eq_dec x x); [reflexivity|congruence]. Qed.

Lemma one_entry_agree d d' : cards_agree (one_entry "x" d) (one_entry "y" d').
Proof.
  intros v c c' H1 H2. cbn in H1, H2. destruct H1 as [H1|[]], H2 as [H2|[]]. congruence.
Qed.
Lemma multiply_default_bad o : oracle_ok o ->
  exists r e, s_multiply o (one_entry "x" (Fin 1)) (one_entry "y" (Fin 1)) = Ok r /\
    in_range r e /\
    spot r e <> (spot (one_entry "x" (Fin 1)) e * spot (one_entry "y" (Fin 1)) e)%R.
Proof.
  intros Ho. set (a := one_entry "x" (Fin 1)). set (b := one_entry "y" (Fin 1)).
  assert (Ha : wf_sparse a) by apply one_entry_wf. assert (Hb : wf_sparse b) by apply one_entry_wf.
  assert (Hc : cards_agree a b) by apply one_entry_agree.
  destruct (binop_any o a b vadd Ho Ha Hb Hc) as (r & Hr & Hres).
  { apply veqb_refl. discriminate. }
  exists r, (fun v => if string_dec v "x" then 1 else 0). split; [exact Hr|]. split.
  - intros v c H.
    apply (b_card_has o a b r Ho Ha Hb Hc (br_vars _ _ _ _ _ _ Hres) (br_cards _ _ _ _ _ _ Hres)) in H.
    cbn in H. assert (c = 2) as -> by (destruct H as [[H|[]]|[H|[]]]; congruence).
    destruct (string_dec v "x"); lia.
  - unfold spot. rewrite (br_out _ _ _ _ _ _ Hres).
    + cbn. rewrite <- exp_plus. intros C. apply exp_inv in C. lra.
    + intros [(k & v & Hin & Heq) _]. cbn in Hin. destruct Hin as [Hin|[]]. injection Hin as <- <-.
      assert (Hx : In "x"%string (b_rema o a b)).
      { apply In_b_rema; [exact Ho|]. cbn. split; [auto|]. intros [C|[]]. discriminate. }
      pose proof (map_env_inj _ _ _ Heq _ Hx) as H. cbn in H. discriminate.
Qed.

(** C03: multiplication trees, one (arbitrary) set order oracle per multiplication. *)
Inductive mul_tree := MLeaf (f : sparse) | MNode (o : oracle) (l r : mul_tree).
Fixpoint mul_eval (t : mul_tree) : res sparse :=
  match t with
  | MLeaf f => Ok f
  | MNode o l r => let* a := mul_eval l in let* b := mul_eval r in s_multiply o a b
  end.
Fixpoint leaves (t : mul_tree) : list sparse :=
  match t with MLeaf f => [f] | MNode _ l r => leaves l ++ leaves r end.
Fixpoint oracles_ok (t : mul_tree) : Prop :=
  match t with MLeaf _ => True | MNode o l r => oracle_ok o /\ oracles_ok l /\ oracles_ok r end.
Definition Rprod (l : list R) : R := fold_right Rmult 1%R l.

Lemma Rprod_app l m : Rprod (l ++ m) = (Rprod l * Rprod m)%R.
Proof.
  unfold Rprod. induction l as [|x l IH]; cbn [app fold_right]; [ring|]. rewrite IH. ring.
Qed.
Lemma Rprod_perm l m : Permutation l m -> Rprod l = Rprod m.
Proof.
  unfold Rprod. induction 1 as [|x l m _ IH|x y l|l m n _ IH1 _ IH2]; cbn [fold_right].
  - reflexivity.
  - now rewrite IH.
  - ring.
  - congruence.
Qed.

Lemma mul_eval_spec t : oracles_ok t ->
  (forall f, In f (leaves t) -> wf_sparse f /\ zero_default f) ->
  (forall f g, In f (leaves t) -> In g (leaves t) -> cards_agree f g) ->
  exists r, mul_eval t = Ok r /\ wf_sparse r /\ zero_default r /\
    (forall v c, has_card r v c <-> exists f, In f (leaves t) /\ has_card f v c) /\
    (forall v, In v (svars r) <-> exists f, In f (leaves t) /\ In v (svars f)) /\
    (forall e, spot r e = Rprod (map (fun f => spot f e) (leaves t))).
Proof.
  induction t as [f|o l IHl r IHr]; cbn [oracles_ok leaves mul_eval]; intros Ho Hw Hag.
  - destruct (Hw f (or_introl eq_refl)) as [Hf Hz].
    exists f. split; [reflexivity|]. split; [exact Hf|]. split; [exact Hz|]. split; [|split].
    + intros v c. split; [intros H; exists f; cbn; auto|]. intros (g & [<-|[]] & H). exact H.
    + intros v. split; [intros H; exists f; cbn; auto|]. intros (g & [<-|[]] & H). exact H.
    + intros e. cbn [map Rprod fold_right]. ring.
  - destruct Ho as (Ho & Hol & Hor).
    destruct IHl as (a & -> & Wa & Za & Ca & Va & Pa); [exact Hol| | |].
    { intros f Hf. apply Hw, in_or_app. auto. }
    { intros f g Hf Hg. apply Hag; apply in_or_app; auto. }
    destruct IHr as (b & -> & Wb & Zb & Cb & Vb & Pb); [exact Hor| | |].
    { intros f Hf. apply Hw, in_or_app. auto. }
    { intros f g Hf Hg. apply Hag; apply in_or_app; auto. }
    cbn [bind].
    destruct (multiply_spec o a b Ho Wa Wb Za Zb) as (p & Hp & Wp & Zp & Vp & Cp & Pp).
    { intros v c c' H1 H2. apply Ca in H1. apply Cb in H2.
      destruct H1 as (f & Hf & H1). destruct H2 as (g & Hg & H2).
      eapply (Hag f g); eauto using in_or_app. }
    exists p. split; [exact Hp|]. split; [exact Wp|]. split; [exact Zp|]. split; [|split].
    + intros v c. rewrite Cp, Ca, Cb. split.
      * intros [(f & Hf & H)|(f & Hf & H)]; exists f; rewrite in_app_iff; auto.
      * intros (f & Hf & H). apply in_app_iff in Hf. destruct Hf; [left|right]; eauto.
    + intros v. rewrite Vp, Va, Vb. split.
      * intros [(f & Hf & H)|(f & Hf & H)]; exists f; rewrite in_app_iff; auto.
      * intros (f & Hf & H). apply in_app_iff in Hf. destruct Hf; [left|right]; eauto.
    + intros e. rewrite Pp, Pa, Pb, map_app, Rprod_app. reflexivity.
Qed.

Lemma mul_tree_order t1 t2 : oracles_ok t1 -> oracles_ok t2 ->
  Permutation (leaves t1) (leaves t2) ->
  (forall f, In f (leaves t1) -> wf_sparse f /\ zero_default f) ->
  (forall f g, In f (leaves t1) -> In g (leaves t1) -> cards_agree f g) ->
  exists r1 r2, mul_eval t1 = Ok r1 /\ mul_eval t2 = Ok r2 /\
    (forall v c, has_card r1 v c <-> has_card r2 v c) /\
    (forall v, In v (svars r1) <-> In v (svars r2)) /\ (forall e, spot r1 e = spot r2 e).
Proof.
  intros H1 H2 HP Hw Hag.
  destruct (mul_eval_spec t1 H1 Hw Hag) as (r1 & E1 & _ & _ & C1 & V1 & P1).
  destruct (mul_eval_spec t2 H2) as (r2 & E2 & _ & _ & C2 & V2 & P2).
  { intros f Hf. apply Hw. eapply Permutation_in; [symmetry|]; eauto. }
  { intros f g Hf Hg. apply Hag; eapply Permutation_in; try (symmetry; eassumption); auto. }
  exists r1, r2. split; [exact E1|]. split; [exact E2|]. split; [|split].
  - intros v c. rewrite C1, C2. split; intros (f & Hf & H); exists f; split; auto.
    + eapply Permutation_in; eauto.
    + eapply Permutation_in; [symmetry|]; eauto.
  - intros v. rewrite V1, V2. split; intros (f & Hf & H); exists f; split; auto.
    + eapply Permutation_in; eauto.
    + eapply Permutation_in; [symmetry|]; eauto.
  - intros e. rewrite P1, P2. apply Rprod_perm, Permutation_map, HP.
Qed.

(** C04 *)
Lemma divide_spec o a b : oracle_ok o -> wf_struct a -> wf_struct b -> cards_agree a b ->
  sdef a = sdef b -> sdef a <> NaN -> (exists v, In v (svars a) /\ In v (svars b)) ->
  exists r, s_divide o a b = Ok r /\ wf_struct r /\ sdef r = vsub (sdef a) (sdef a) /\
    (forall v, In v (svars r) <-> In v (svars a) \/ In v (svars b)) /\
    (forall v c, has_card r v c <-> has_card a v c \/ has_card b v c) /\
    (forall e, in_range a e -> in_range b e -> sval r e = vsub (sval a e) (sval b e)).
Proof.
  intros Ho Ha Hb Hc Hd Hn Hsh.
  assert (Hde : veqb (sdef a) (sdef b) = true) by (rewrite <- Hd; now apply veqb_refl).
  destruct (binop_none o a b vsub Ho Ha Hb Hc Hde Hsh) as (r & Hr & Hres).
  exists r. split; [exact Hr|]. split; [eapply binop_struct; eauto|].
  split; [apply (br_def _ _ _ _ _ _ Hres)|].
  split; [intros v; rewrite (br_vars _ _ _ _ _ _ Hres); now apply In_b_vars|].
  split; [apply (b_card_has o a b r Ho Ha Hb Hc (br_vars _ _ _ _ _ _ Hres) (br_cards _ _ _ _ _ _ Hres))|].
  intros e Ra Rb. apply (br_in _ _ _ _ _ _ Hres). split; intros v Hv _; [apply Ra|apply Rb];
    apply has_card_iff; auto.
Qed.
Lemma divide_disjoint o a b : oracle_ok o -> wf_struct a -> wf_struct b ->
  sdef a = sdef b -> sdef a <> NaN -> (forall v, In v (svars a) -> ~ In v (svars b)) ->
  s_divide o a b = Err TypeError.
Proof.
  intros Ho Ha Hb Hd Hn Hdis. apply binop_none_disjoint; auto. rewrite <- Hd. now apply veqb_refl.
Qed.

(** C05 *)
Lemma binop_default_mismatch o a b f rule : oracle_ok o -> wf_struct a -> wf_struct b ->
  cards_agree a b -> veqb (sdef a) (sdef b) = false ->
  apply_binop o a b f rule = Err NotImplementedError.
Proof.
  intros Ho Ha Hb Hc Hd. unfold apply_binop.
  rewrite (assert_cards_ok a b Ha Hb Hc). cbn [bind].
  fold (b_inter o a b). fold (b_rema o a b) (b_remb o a b).
  destruct (nested_ok a _ _ Ha (perm_a o a b Ho (wf_vars a Ha))) as (na & -> & _).
  destruct (nested_ok b _ _ Hb (perm_b o a b Ho (wf_vars b Hb))) as (nb & -> & _).
  cbn [bind]. unfold vneb. rewrite Hd. reflexivity.
Qed.
Lemma quotient_unusable o o' a b c q : oracle_ok o -> oracle_ok o' ->
  wf_struct a -> wf_struct b -> wf_struct c -> zero_default a -> zero_default b ->
  cards_agree a b -> cards_agree a c -> cards_agree b c ->
  (exists v, In v (svars a) /\ In v (svars b)) ->
  s_divide o a b = Ok q -> s_multiply o' q c = Err NotImplementedError.
Proof.
  intros Ho Ho' Ha Hb Hc Za Zb Cab Cac Cbc Hsh Hq.
  destruct (divide_spec o a b Ho Ha Hb Cab) as (r & Hr & Wr & Dr & _ & Cr & _); auto.
  { unfold zero_default in *. congruence. }
  { unfold zero_default in *. congruence. }
  assert (r = q) by congruence. subst r.
  apply binop_default_mismatch; auto.
  - intros v k k' H1 H2. apply Cr in H1. destruct H1 as [H1|H1]; eauto.
  - rewrite Dr, Za. reflexivity.
Qed.

(** C06 *)
Lemma special_divide_lp x y : is_lp x -> is_lp y -> (y = NInf -> x = NInf) ->
  is_lp (special_divide x y) /\
  pot (special_divide x y) = (if Req_EM_T (pot y) 0 then 0 else pot x / pot y)%R.
Proof.
  destruct x as [|a| |], y as [|b| |]; cbn; intros Hx Hy Hxy; try tauto.
  - split; [exact I|]. destruct (Req_EM_T 0 0); [reflexivity|congruence].
  - split; [exact I|]. destruct (Req_EM_T (exp b) 0); unfold Rdiv; lra.
  - exfalso. specialize (Hxy eq_refl). discriminate.
  - split; [exact I|]. destruct (Req_EM_T (exp b) 0) as [C|_].
    + pose proof (exp_pos b). lra.
    + rewrite exp_plus, exp_Ropp. reflexivity.
Qed.

Lemma cancel_spec o a b : oracle_ok o -> wf_sparse a -> wf_sparse b ->
  zero_default a -> zero_default b -> cards_agree a b ->
  incl (svars b) (svars a) ->
  (forall e, spot b e = 0%R -> spot a e = 0%R) ->
  exists q, s_cancel o a b = Ok q /\ wf_sparse q /\ zero_default q /\
    (forall v, In v (svars q) <-> In v (svars a)) /\
    (forall v c, has_card q v c <-> has_card a v c) /\
    (forall e, spot q e = if Req_EM_T (spot b e) 0 then 0 else spot a e / spot b e)%R.
Proof.
  intros Ho Ha Hb Za Zb Hc Hin Hz.
  assert (LA : forall e, is_lp (sval a e)) by (intros e; apply sval_lp; auto; now apply zd_lp).
  assert (LB : forall e, is_lp (sval b e)) by (intros e; apply sval_lp; auto; now apply zd_lp).
  assert (Hnn : forall e, sval b e = NInf -> sval a e = NInf).
  { intros e H. specialize (Hz e). unfold spot in Hz. rewrite H in Hz. specialize (Hz eq_refl).
    pose proof (LA e) as L. destruct (sval a e) as [|x| |]; cbn in *; try tauto.
    pose proof (exp_pos x). lra. }
  destruct (binop_any o a b special_divide Ho Ha Hb Hc (zd_eqb a b Za Zb)) as (q & Hq & Hres).
  exists q. split; [exact Hq|].
  split. { apply (binop_wf o a b _ q _ Ho Ha Hb Hres). intros e _. apply special_divide_lp; auto. }
  split; [unfold zero_default; rewrite (br_def _ _ _ _ _ _ Hres), Za; reflexivity|].
  split. { intros v. rewrite (br_vars _ _ _ _ _ _ Hres), (In_b_vars o a b Ho).
    specialize (Hin v). tauto. }
  split. { intros v c.
    rewrite (b_card_has o a b q Ho Ha Hb Hc (br_vars _ _ _ _ _ _ Hres) (br_cards _ _ _ _ _ _ Hres) v c).
    split; [|tauto]. intros [H|H]; [exact H|]. apply has_card_iff; [exact Ha|].
    apply has_card_iff in H; [|exact Hb]. destruct H as [H1 ->]. split; [now apply Hin|].
    symmetry. apply (Hc v); (apply has_card_iff; [auto using wf_s|split; auto]). }
  assert (Hv : forall e, sval q e = special_divide (sval a e) (sval b e)).
  { intros e. apply (binop_any_val o a b _ _ Ho Ha Hb (zd_eqb a b Za Zb) Hres).
    - intros _. rewrite Za. pose proof (LB e) as L. destruct (sval b e); cbn in *; tauto.
    - intros H. rewrite Za in H. rewrite (Hnn e H), Za. reflexivity. }
  intros e. unfold spot. rewrite Hv. apply special_divide_lp; auto.
Qed.

Lemma cancel_multiply o o' a b : oracle_ok o -> oracle_ok o' -> wf_sparse a -> wf_sparse b ->
  zero_default a -> zero_default b -> cards_agree a b ->
  exists p q, s_multiply o a b = Ok p /\ s_cancel o' p b = Ok q /\ wf_sparse q /\ zero_default q /\
    (forall v, In v (svars q) <-> In v (svars a) \/ In v (svars b)) /\
    (forall v c, has_card q v c <-> has_card a v c \/ has_card b v c) /\
    (forall e, spot b e <> 0%R -> spot q e = spot a e) /\
    (forall e, spot b e = 0%R -> spot q e = 0%R).
Proof.
  intros Ho Ho' Ha Hb Za Zb Hc.
  destruct (multiply_spec o a b Ho Ha Hb Za Zb Hc) as (p & Hp & Wp & Zp & Vp & Cp & Pp).
  destruct (cancel_spec o' p b Ho' Wp Hb Zp Zb) as (q & Hq & Wq & Zq & Vq & Cq & Pq).
  - intros v c c' H1 H2. apply Cp in H1. destruct H1 as [H1|H1]; [eauto|].
    apply has_card_iff in H1, H2; auto using wf_s. destruct H1, H2. congruence.
  - intros v Hv. apply Vp. auto.
  - intros e He. rewrite Pp, He. lra.
  - exists p, q. split; [exact Hp|]. split; [exact Hq|]. split; [exact Wq|]. split; [exact Zq|].
    split; [intros v; now rewrite Vq, Vp|]. split; [intros v c; now rewrite Cq, Cp|].
    split; intros e He; rewrite Pq; destruct (Req_EM_T (spot b e) 0); try contradiction; auto.
    rewrite Pp. field. exact He.
Qed.

(** Cancelling where the divisor is zero and the dividend is not leaves an infinite value, unless
    nothing at all is stored for the divisor. *)
Lemma cancel_pole o a b : oracle_ok o -> wf_sparse a -> wf_sparse b -> zero_default a -> zero_default b ->
  cards_agree a b -> incl (svars b) (svars a) ->
  exists q, s_cancel o a b = Ok q /\
    forall e, spot a e <> 0%R -> spot b e = 0%R -> stbl b <> [] -> sval q e = PInf.
Proof.
  intros Ho Ha Hb Za Zb Hc Hin.
  destruct (binop_any o a b special_divide Ho Ha Hb Hc (zd_eqb a b Za Zb)) as (q & Hq & Hres).
  exists q. split; [exact Hq|]. intros e Hae Hbe Hne.
  assert (LA : is_lp (sval a e)) by (apply sval_lp; auto; now apply zd_lp).
  assert (LB : is_lp (sval b e)) by (apply sval_lp; auto; now apply zd_lp).
  assert (Ea : exists x, sval a e = Fin x) by (unfold spot in Hae; destruct (sval a e); cbn in *; try tauto; eauto).
  assert (Eb : sval b e = NInf).
  { unfold spot in Hbe. destruct (sval b e) as [|x| |]; cbn in *; try tauto. pose proof (exp_pos x). lra. }
  destruct Ea as (x & Ea). rewrite (br_in _ _ _ _ _ _ Hres).
  - rewrite Ea, Eb. reflexivity.
  - split.
    + destruct (present_dec a _ _ e Ha (perm_a o a b Ho (wf_vars a Ha))) as [P|P]; [exact P|].
      pose proof (not_present_a o a b e Ho Ha P) as C. rewrite Za in C. congruence.
    + assert (Er : b_remb o a b = []).
      { destruct (b_remb o a b) as [|v l] eqn:E; [reflexivity|]. assert (I : In v (b_remb o a b)) by (rewrite E; left; reflexivity).
        apply (In_b_remb o a b Ho) in I. destruct I as [I1 I2]. destruct (I2 (Hin v I1)). }
      rewrite Er. unfold present. destruct (stbl b) as [|[k w] l]; [congruence|]. exists k, w. split; [left; reflexivity|reflexivity].
Qed.
