(** Look-up characterisation of the binary operations on sparse tables. *)
From Verif Require Export SparseFacts.

(** values *)
Lemma veqb_eq x y : veqb x y = true -> x = y.
Proof.
  destruct x as [|a| |], y as [|b| |]; cbn; try discriminate; try reflexivity.
  unfold Req_b. destruct (Req_EM_T a b); [intros _; congruence|discriminate].
Qed.
Lemma veqb_refl x : x <> NaN -> veqb x x = true.
Proof.
  destruct x as [|a| |]; cbn; intros H; try reflexivity; [|congruence].
  unfold Req_b. destruct (Req_EM_T a a); congruence.
Qed.
Lemma veqb_sym x y : veqb x y = veqb y x.
Proof.
  destruct x as [|a| |], y as [|b| |]; cbn; try reflexivity.
  unfold Req_b. destruct (Req_EM_T a b), (Req_EM_T b a); congruence.
Qed.

(** dictionaries read with a default *)
Lemma dget_or_In {K V} {E : EqDec K} (d : dict K V) k v0 :
  ~ In k (dkeys d) -> dget_or d k v0 = v0.
Proof. intros H. unfold dget_or. apply dget_None in H. now rewrite H. Qed.

(** same scope *)
Lemma same_scope_fold (g : key -> val) (nd : val) l : forall r : table,
  (forall k, dget (fold_left (fun (r : table) k => if vneb (g k) nd then dset r k (g k) else r) l r) k
     = if mem k l && vneb (g k) nd then Some (g k) else dget r k) /\
  (NoDup (dkeys r) ->
   NoDup (dkeys (fold_left (fun (r : table) k => if vneb (g k) nd then dset r k (g k) else r) l r))).
Proof.
  induction l as [|k0 l IH]; intros r; [split; [reflexivity|tauto]|].
  cbn [fold_left].
  set (r1 := if vneb (g k0) nd then dset r k0 (g k0) else r).
  destruct (IH r1) as [IH1 IH2]. split.
  - intros k. rewrite IH1. cbn [mem]. destruct (eq_dec k k0) as [->|N].
    + cbn [andb]. destruct (mem k0 l); cbn [andb];
        subst r1; destruct (vneb (g k0) nd); try reflexivity. apply dget_dset_eq.
    + destruct (mem k l && vneb (g k) nd); [reflexivity|].
      subst r1. destruct (vneb (g k0) nd); [now apply dget_dset_ne|reflexivity].
  - intros Hn. apply IH2. subst r1. destruct (vneb (g k0) nd); [now apply NoDup_dset|exact Hn].
Qed.

Lemma same_scope_get o f d ta tb k : oracle_ok o ->
  dget (same_scope_op o f d ta tb) k =
  if (mem k (dkeys ta) || mem k (dkeys tb)) &&
     vneb (f (dget_or ta k d) (dget_or tb k d)) (f d d)
  then Some (f (dget_or ta k d) (dget_or tb k d)) else None.
Proof.
  intros Ho. unfold same_scope_op.
  destruct (same_scope_fold (fun k => f (dget_or ta k d) (dget_or tb k d)) (f d d) (ko o (dedup (dkeys ta ++ dkeys tb))) [])
    as [H _]. etransitivity; [exact (H k)|]. cbn [dget]. clear H.
  assert (mem k (ko o (dedup (dkeys ta ++ dkeys tb))) = mem k (dkeys ta) || mem k (dkeys tb)) as ->;
    [|reflexivity].
  apply eq_true_iff_eq. rewrite orb_true_iff, !mem_In.
  rewrite (ko_In o _ k Ho (NoDup_dedup _)), In_dedup, in_app_iff. reflexivity.
Qed.
Lemma same_scope_NoDup o f d ta tb : NoDup (dkeys (same_scope_op o f d ta tb)).
Proof.
  unfold same_scope_op.
  destruct (same_scope_fold (fun k => f (dget_or ta k d) (dget_or tb k d)) (f d d) (ko o (dedup (dkeys ta ++ dkeys tb))) [])
    as [_ H]. apply H. constructor.
Qed.

(** The value read at [k] from the same-scope result, with the new default. *)
Lemma same_scope_val o f d ta tb k : oracle_ok o ->
  match dget (same_scope_op o f d ta tb) k with Some v => v | None => f d d end =
  f (dget_or ta k d) (dget_or tb k d).
Proof.
  intros Ho. rewrite (same_scope_get o f d ta tb k Ho).
  destruct (mem k (dkeys ta) || mem k (dkeys tb)) eqn:Hm; cbn [andb].
  - unfold vneb. destruct (veqb _ _) eqn:Hv; cbn [negb]; [|reflexivity].
    symmetry. now apply veqb_eq.
  - apply orb_false_iff in Hm. destruct Hm as [H1 H2].
    apply mem_nIn in H1. apply mem_nIn in H2.
    now rewrite (dget_or_In ta k d H1), (dget_or_In tb k d H2).
Qed.

(** flatten *)
Definition flat_list (nt : ntd) : table :=
  flat_map (fun os : key * table => map (fun ikv => (fst os ++ fst ikv, snd ikv)) (snd os)) nt.

Lemma flatten_fold (nt : ntd) : forall r : table,
  fold_left (fun r okv =>
               fold_left (fun r' ikv => dset r' (fst okv ++ fst ikv) (snd ikv)) (snd okv) r)
            nt r =
  fold_left (fun d kv => dset d (fst kv) (snd kv)) (flat_list nt) r.
Proof.
  induction nt as [|[ko s] nt IH]; intros r; [reflexivity|].
  cbn [fold_left flat_list flat_map]. rewrite IH, fold_left_app. f_equal.
  cbn [fst snd]. revert r. induction s as [|[ki v] s IHs]; intros r; [reflexivity|].
  cbn [map fold_left fst snd]. apply IHs.
Qed.

Lemma app_inj_len {A} (a a' b b' : list A) : length a = length a' -> a ++ b = a' ++ b' -> a = a' /\ b = b'.
Proof.
  revert a'; induction a as [|x a IH]; intros [|y a'] Hl H; try discriminate; [split; auto|].
  cbn in *. injection H as -> H. injection Hl as Hl. destruct (IH a' Hl H) as [-> ->]. split; reflexivity.
Qed.

Lemma flat_list_keys_NoDup n (nt : ntd) :
  nt_wf nt -> (forall k, In k (dkeys nt) -> length k = n) -> NoDup (dkeys (flat_list nt)).
Proof.
  intros [Hn Hs] Hl. induction nt as [|[ko s] nt IH]; [constructor|].
  unfold dkeys in *. cbn [flat_list flat_map] in *. rewrite map_app. cbn [map fst] in *.
  inversion Hn as [|? ? Hko Hn']; subst. apply NoDup_app_intro.
  - cbn [fst snd]. rewrite map_map. cbn [fst].
    apply (NoDup_map_inj (fun x => ko ++ fst x)).
    + intros [k1 v1] [k2 v2] H1 H2 Heq. cbn [fst] in *. apply app_inv_head in Heq. subst k2.
      f_equal. destruct (Hs ko s (or_introl eq_refl)) as [Hns _].
      pose proof (In_dget s k1 v1 Hns H1). pose proof (In_dget s k1 v2 Hns H2). congruence.
    + destruct (Hs ko s (or_introl eq_refl)) as [Hns _]. apply NoDup_map_inv in Hns. exact Hns.
  - apply IH; [exact Hn'| |].
    + intros k s' H. apply (Hs k s'). right; exact H.
    + intros k H. apply Hl. right; exact H.
  - intros x Hx Hy. apply in_map_iff in Hx. destruct Hx as ([k v] & <- & Hx).
    apply in_map_iff in Hx. destruct Hx as ([ki vi] & Hx & _). cbn [fst snd] in Hx. injection Hx as <- <-.
    apply in_map_iff in Hy. destruct Hy as ([k' v'] & Hk' & Hy). cbn [fst] in Hk'. subst k'.
    apply in_flat_map in Hy. destruct Hy as ([ko' s'] & Hin & Hy).
    apply in_map_iff in Hy. destruct Hy as ([ki' vi'] & Hy & _). cbn [fst snd] in Hy.
    injection Hy as Hy _. symmetry in Hy.
    assert (Hko' : In ko' (map fst nt)) by (apply in_map_iff; exists (ko', s'); auto).
    apply app_inj_len in Hy.
    + destruct Hy as [-> _]. contradiction.
    + rewrite (Hl ko) by (left; reflexivity). symmetry. apply Hl. right; exact Hko'.
Qed.

Lemma flatten_flat n (nt : ntd) :
  nt_wf nt -> (forall k, In k (dkeys nt) -> length k = n) -> flatten_ntd nt = flat_list nt.
Proof.
  intros Hwf Hl. unfold flatten_ntd. rewrite flatten_fold.
  rewrite fold_dset_NoDup; [reflexivity|]. cbn. eapply flat_list_keys_NoDup; eauto.
Qed.

Lemma dget_app {K V} {E : EqDec K} (d1 d2 : dict K V) k :
  dget (d1 ++ d2) k = match dget d1 k with Some v => Some v | None => dget d2 k end.
Proof.
  induction d1 as [|[k0 v0] d1 IH]; cbn; [reflexivity|]. destruct (eq_dec k k0); auto.
Qed.
Lemma dget_prefix (p k : key) (s : table) :
  dget (map (fun ikv => (p ++ fst ikv, snd ikv)) s) (p ++ k : key) = dget s k.
Proof.
  induction s as [|[k0 v0] s IH]; cbn [map dget fst snd]; [reflexivity|].
  destruct (eq_dec k k0) as [->|N].
  - destruct (eq_dec (p ++ k0) (p ++ k0)); congruence.
  - destruct (eq_dec (p ++ k) (p ++ k0)) as [C|_]; [apply app_inv_head in C; congruence|exact IH].
Qed.
Lemma dget_prefix_ne (p p' k : key) (s : table) :
  length p = length p' -> p <> p' ->
  dget (map (fun ikv => (p ++ fst ikv, snd ikv)) s) (p' ++ k : key) = None.
Proof.
  intros Hl Hne. apply dget_None. unfold dkeys. rewrite map_map. intros H.
  apply in_map_iff in H. destruct H as ([k0 v0] & H & _). cbn [fst] in H.
  apply app_inj_len in H; [|exact Hl]. destruct H; contradiction.
Qed.

Lemma flatten_get n (nt : ntd) (ko ki : key) :
  nt_wf nt -> (forall k, In k (dkeys nt) -> length k = n) -> length ko = n ->
  dget (flatten_ntd nt) (ko ++ ki) = nget nt ko ki.
Proof.
  intros Hwf Hl Hko. rewrite (flatten_flat n nt Hwf Hl). destruct Hwf as [Hn Hs].
  unfold nget. induction nt as [|[k0 s] nt IH]; [reflexivity|].
  cbn [flat_list flat_map dget]. rewrite dget_app. cbn [fst snd].
  assert (Hk0 : length k0 = n) by (apply Hl; left; reflexivity).
  unfold dkeys in Hn. cbn [map fst] in Hn. inversion Hn as [|? ? Hk0n Hn']; subst.
  destruct (eq_dec ko k0) as [->|N].
  - rewrite dget_prefix. destruct (dget s ki) as [v|]; [reflexivity|].
    apply dget_None. intros C. unfold dkeys in C. apply in_map_iff in C.
    destruct C as ([k v] & Hk & C). cbn [fst] in Hk. apply in_flat_map in C.
    destruct C as ([k1 s1] & Hin & C). apply in_map_iff in C.
    destruct C as ([k2 v2] & C & _). cbn [fst snd] in C. injection C as C _. subst k.
    assert (H1 : In k1 (map fst nt)) by (apply in_map_iff; exists (k1, s1); auto).
    symmetry in C. apply app_inj_len in C.
    + destruct C as [<- _]. contradiction.
    + rewrite (Hl k1); [reflexivity|]. right; exact H1.
  - rewrite dget_prefix_ne by (try congruence).
    apply IH; auto.
    + intros k s' H. apply (Hs k s'). right; exact H.
    + intros k H. apply Hl. right; exact H.
Qed.

Lemma flatten_In n (nt : ntd) k v :
  nt_wf nt -> (forall k, In k (dkeys nt) -> length k = n) ->
  In (k, v) (flatten_ntd nt) -> exists ko s ki, In (ko, s) nt /\ In (ki, v) s /\ k = ko ++ ki.
Proof.
  intros Hwf Hl. rewrite (flatten_flat n nt Hwf Hl). intros H.
  apply in_flat_map in H. destruct H as ([k0 s] & Hin & H). apply in_map_iff in H.
  destruct H as ([ki vi] & H & Hi). cbn [fst snd] in *. injection H as <- <-. eauto 6.
Qed.

(** apply over all combinations *)
Lemma apply_any_spec o (na nb : ntd) da db combos f d (SA SB : key -> table) la lb :
  oracle_ok o ->
  (forall ka kb, In (ka, kb) combos ->
     sub_or na ka da = Ok (SA ka) /\ sub_or nb kb db = Ok (SB kb) /\
     length ka = la /\ length kb = lb) ->
  exists nt, apply_any_scope o na nb da db combos f d = Ok nt /\ nt_wf nt /\
    (forall k s, In (k, s) nt -> exists ka kb, In (ka, kb) combos /\ k = ka ++ kb /\
        s = same_scope_op o f d (SA ka) (SB kb)) /\
    (forall ka kb, length ka = la -> length kb = lb ->
       dget nt (ka ++ kb) =
       if mem (ka, kb) combos
       then match same_scope_op o f d (SA ka) (SB kb) with [] => None | s => Some s end
       else None).
Proof.
  intros Ho Hc. unfold apply_any_scope.
  assert (Hall : forall l (r : ntd), incl l combos -> nt_wf r ->
    exists nt, foldM (fun (r : ntd) (ab : key * key) =>
           let* sa := sub_or na (fst ab) da in
           let* sb := sub_or nb (snd ab) db in
           let s := same_scope_op o f d sa sb in
           match s with
           | [] => Ok r
           | _ => Ok (dset r (fst ab ++ snd ab) s)
           end) l r = Ok nt /\ nt_wf nt /\
    (forall k s, In (k, s) nt -> In (k, s) r \/ exists ka kb, In (ka, kb) l /\ k = ka ++ kb /\
        s = same_scope_op o f d (SA ka) (SB kb)) /\
    (forall ka kb, length ka = la -> length kb = lb ->
       dget nt (ka ++ kb) =
       if mem (ka, kb) l
       then match same_scope_op o f d (SA ka) (SB kb) with [] => dget r (ka ++ kb) | s => Some s end
       else dget r (ka ++ kb))).
  { induction l as [|[ka0 kb0] l IH]; intros r Hinc Hwf.
    - exists r. cbn [foldM mem]. split; [reflexivity|]. split; [exact Hwf|]. split; [tauto|reflexivity].
    - cbn [foldM fst snd].
      destruct (Hc ka0 kb0) as (H1 & H2 & H3 & H4); [apply Hinc; left; reflexivity|].
      rewrite H1, H2. cbn [bind].
      set (s0 := same_scope_op o f d (SA ka0) (SB kb0)).
      assert (Hs0 : NoDup (dkeys s0)) by apply same_scope_NoDup.
      assert (exists r1, (match s0 with [] => Ok r | _ => Ok (dset r (ka0 ++ kb0) s0) end) = Ok r1 /\
         nt_wf r1 /\ (forall k s, In (k, s) r1 -> In (k, s) r \/ (k = ka0 ++ kb0 /\ s = s0)) /\
         (forall k, dget r1 k = if eq_dec k (ka0 ++ kb0)
            then match s0 with [] => dget r k | _ => Some s0 end else dget r k)) as (r1 & -> & Hr1 & Hr1k & Hr1g).
      { destruct s0 as [|x s0'] eqn:Es.
        - exists r. split; [reflexivity|]. split; [exact Hwf|]. split; [tauto|].
          intros k. destruct (eq_dec k (ka0 ++ kb0)); reflexivity.
        - exists (dset r (ka0 ++ kb0) (x :: s0')). split; [reflexivity|]. split; [|split].
          + destruct Hwf as [Hw1 Hw2]. split; [now apply NoDup_dset|].
            intros k s H. apply In_dset in H. destruct H as [[-> ->]|H]; [|eauto].
            split; [exact Hs0|discriminate].
          + intros k s H. apply In_dset in H. destruct H as [[-> ->]|H]; auto.
          + intros k. rewrite dget_dset. reflexivity. }
      cbn [bind].
      destruct (IH r1) as (nt & Hf & Hw & Hk & Hg); [intros x Hx; apply Hinc; right; exact Hx|exact Hr1|].
      exists nt. split; [exact Hf|]. split; [exact Hw|]. split.
      + intros k s H. destruct (Hk k s H) as [H'|(ka & kb & Hi & -> & ->)].
        * destruct (Hr1k k s H') as [H''|[-> ->]]; [left; exact H''|].
          right. exists ka0, kb0. split; [left; reflexivity|]. split; reflexivity.
        * right. exists ka, kb. split; [right; exact Hi|]. split; reflexivity.
      + intros ka kb Hla Hlb. rewrite (Hg ka kb Hla Hlb), (Hr1g (ka ++ kb)). cbn [mem].
        destruct (eq_dec (ka, kb) (ka0, kb0)) as [E|N].
        * injection E as -> ->. fold s0. destruct (eq_dec _ _) as [_|C]; [|congruence].
          destruct (mem (ka0, kb0) l); destruct s0; reflexivity.
        * destruct (eq_dec (ka ++ kb) (ka0 ++ kb0)) as [C|_]; [|reflexivity].
          apply app_inj_len in C; [|congruence]. destruct C; congruence. }
  destruct (Hall combos [] (incl_refl _)) as (nt & Hf & Hw & Hk & Hg).
  { split; [constructor|intros k s []]. }
  exists nt. split; [exact Hf|]. split; [exact Hw|]. split.
  - intros k s H. destruct (Hk k s H) as [[]|H']. exact H'.
  - intros ka kb Hla Hlb. rewrite (Hg ka kb Hla Hlb). cbn [dget].
    destruct (mem (ka, kb) combos); [|reflexivity]. destruct (same_scope_op _ _ _ _ _); reflexivity.
Qed.

(** cardinalities *)
Lemma var_cards_wf f : wf_struct f -> var_cards f = combine (svars f) (scards f).
Proof.
  intros [Hn Hl _ _]. unfold var_cards, zip_cards. apply dict_of_NoDup.
  now rewrite dkeys_combine.
Qed.
Lemma dget_combine_In (l : list string) (m : list nat) v :
  length m = length l -> In v l -> exists c, dget (combine l m) v = Some c.
Proof.
  intros Hl Hv. apply In_dkeys_dget. now rewrite dkeys_combine.
Qed.
Lemma card_of_get f v : wf_struct f -> In v (svars f) -> dget (var_cards f) v = Some (card_of f v).
Proof.
  intros Hw Hv. rewrite (var_cards_wf f Hw). unfold card_of.
  destruct (dget_combine_In (svars f) (scards f) v (wf_cards f Hw) Hv) as (c & ->). reflexivity.
Qed.
Lemma card_of_nIn f v : wf_struct f -> ~ In v (svars f) -> dget (var_cards f) v = None.
Proof.
  intros Hw Hv. rewrite (var_cards_wf f Hw). apply dget_None.
  now rewrite (dkeys_combine _ _ (wf_cards f Hw)).
Qed.
Lemma has_card_iff f v c : wf_struct f -> (has_card f v c <-> In v (svars f) /\ c = card_of f v).
Proof.
  intros Hw. unfold has_card. split.
  - intros H. split; [eapply in_combine_l; eauto|].
    unfold card_of. erewrite In_dget; [reflexivity| |exact H].
    rewrite (dkeys_combine _ _ (wf_cards f Hw)). apply (wf_vars f Hw).
  - intros [Hv ->]. apply dget_In. rewrite <- (var_cards_wf f Hw). now apply card_of_get.
Qed.
Lemma vars_to_cards_ok f vs : wf_struct f -> incl vs (svars f) ->
  vars_to_cards (var_cards f) vs = Ok (map (card_of f) vs).
Proof.
  intros Hw Hi. apply mapM_ok. intros v Hv. unfold dget_r.
  now rewrite (card_of_get f v Hw (Hi v Hv)).
Qed.
Lemma scards_map f : wf_struct f -> scards f = map (card_of f) (svars f).
Proof.
  intros Hw. apply nth_error_ext. intros i.
  destruct (nth_error (svars f) i) as [v|] eqn:Hv.
  - rewrite (map_nth_error _ _ _ Hv). unfold card_of.
    destruct (nth_error (scards f) i) as [c|] eqn:Hc.
    + f_equal. erewrite In_dget; [reflexivity| |].
      * rewrite (dkeys_combine _ _ (wf_cards f Hw)). apply (wf_vars f Hw).
      * assert (Hvc : nth_error (combine (svars f) (scards f)) i = Some (v, c)).
        { clear Hw. revert i Hv Hc. generalize (scards f).
          induction (svars f) as [|x l IH]; intros [|y m] [|i] Hv Hc; cbn in *; try discriminate; auto.
          congruence. }
        eapply nth_error_In; eauto.
    + apply nth_error_None in Hc. rewrite (wf_cards f Hw) in Hc.
      assert (i < length (svars f)) by (apply nth_error_Some; congruence). lia.
  - apply nth_error_None in Hv.
    assert (nth_error (scards f) i = None) as -> by (apply nth_error_None; rewrite (wf_cards f Hw); lia).
    symmetry. apply nth_error_None. now rewrite map_length.
Qed.

Lemma Forall2_map_l {A B C} (P : B -> C -> Prop) (g : A -> B) l m :
  Forall2 P (map g l) m <-> Forall2 (fun x y => P (g x) y) l m.
Proof.
  revert m; induction l as [|x l IH]; intros m; cbn; split; intros H; inversion H; subst;
    constructor; auto; apply IH; auto.
Qed.
Lemma Forall2_map_both {A B C} (P : B -> C -> Prop) (g : A -> B) (h : A -> C) l :
  Forall2 P (map g l) (map h l) <-> forall x, In x l -> P (g x) (h x).
Proof.
  induction l as [|x l IH]; cbn; split; intros H.
  - tauto.
  - constructor.
  - inversion H as [|? ? ? ? H1 H2]; subst. intros y [->|Hy]; [exact H1|]. now apply IH.
  - constructor; [apply H; left; reflexivity|]. apply IH. intros y Hy. apply H. right; exact Hy.
Qed.

Lemma key_range f k v x : wf_struct f -> In (k, v) (stbl f) -> In x (svars f) ->
  env_of (svars f) k x < card_of f x.
Proof.
  intros Hw Hk Hx. pose proof (wf_keys f Hw k v Hk) as H.
  assert (Hlen : length k = length (svars f)).
  { rewrite <- (wf_cards f Hw). eapply Forall2_length; eauto. }
  rewrite (scards_map f Hw) in H.
  rewrite <- (map_env_of (svars f) k (wf_vars f Hw) Hlen) in H.
  revert x Hx. now apply Forall2_map_both.
Qed.
Lemma key_length f k v : wf_struct f -> In (k, v) (stbl f) -> length k = length (svars f).
Proof.
  intros Hw Hk. pose proof (wf_keys f Hw k v Hk) as H. rewrite <- (wf_cards f Hw).
  eapply Forall2_length; eauto.
Qed.

Lemma assert_cards_ok a b : wf_struct a -> wf_struct b -> cards_agree a b ->
  assert_cards a b = Ok tt.
Proof.
  intros Ha Hb Hc. unfold assert_cards.
  assert (Hall : forall l, incl l (svars a) -> foldM (fun (_ : unit) v =>
           match dget (var_cards b) v with
           | None => Ok tt
           | Some cb => let* ca := dget_r (var_cards a) v in py_assert (Nat.eqb ca cb)
           end) l tt = Ok tt); [|apply Hall, incl_refl].
  induction l as [|v l IH]; intros Hi; [reflexivity|]. cbn [foldM].
  specialize (IH (fun x Hx => Hi x (or_intror Hx))).
  assert (Hv : In v (svars a)) by (apply Hi; left; reflexivity).
  match goal with |- bind ?m _ = _ => assert (m = Ok tt) as ->; [|exact IH] end.
  destruct (dget (var_cards b) v) as [cb|] eqn:Hcb; [|reflexivity].
  unfold dget_r. rewrite (card_of_get a v Ha Hv). cbn [bind].
  assert (In v (svars b)).
  { apply dget_Some_key in Hcb. rewrite (var_cards_wf b Hb), (dkeys_combine _ _ (wf_cards b Hb)) in Hcb.
    exact Hcb. }
  rewrite (card_of_get b v Hb H) in Hcb. injection Hcb as <-.
  unfold py_assert. rewrite (proj2 (Nat.eqb_eq _ _)); [reflexivity|].
  apply (Hc v); apply has_card_iff; auto.
Qed.

(** scopes of a binary operation *)
Definition b_inter (o : oracle) (a b : sparse) := ssort (so o (set_inter (svars a) (svars b))).
Definition b_rema o a b := so o (set_diff (svars a) (b_inter o a b)).
Definition b_remb o a b := so o (set_diff (svars b) (b_inter o a b)).
Definition b_vars o a b := b_rema o a b ++ b_remb o a b ++ b_inter o a b.
Definition b_card (a b : sparse) (v : string) : nat :=
  if mem v (svars b) then card_of b v else card_of a v.

Section Scopes.
  Context (o : oracle) (a b : sparse) (Ho : oracle_ok o).
  Lemma In_b_inter v : In v (b_inter o a b) <-> In v (svars a) /\ In v (svars b).
  Proof.
    unfold b_inter. rewrite <- In_set_inter.
    rewrite <- (so_In o _ v Ho (NoDup_set_inter (svars a) (svars b))).
    split; apply Permutation_in; [symmetry|]; apply ssort_perm.
  Qed.
  Lemma NoDup_b_inter : NoDup (b_inter o a b).
  Proof.
    eapply Permutation_NoDup; [apply ssort_perm|]. apply so_NoDup; [exact Ho|apply NoDup_set_inter].
  Qed.
  Lemma In_b_rema v : In v (b_rema o a b) <-> In v (svars a) /\ ~ In v (svars b).
  Proof.
    unfold b_rema. rewrite (so_In o _ v Ho (NoDup_set_diff _ _)), In_set_diff, In_b_inter. tauto.
  Qed.
  Lemma NoDup_b_rema : NoDup (b_rema o a b).
  Proof. apply so_NoDup; [exact Ho|apply NoDup_set_diff]. Qed.
  Lemma In_b_remb v : In v (b_remb o a b) <-> In v (svars b) /\ ~ In v (svars a).
  Proof.
    unfold b_remb. rewrite (so_In o _ v Ho (NoDup_set_diff _ _)), In_set_diff, In_b_inter. tauto.
  Qed.
  Lemma NoDup_b_remb : NoDup (b_remb o a b).
  Proof. apply so_NoDup; [exact Ho|apply NoDup_set_diff]. Qed.
  Lemma In_b_vars v : In v (b_vars o a b) <-> In v (svars a) \/ In v (svars b).
  Proof.
    unfold b_vars. rewrite !in_app_iff, In_b_rema, In_b_remb, In_b_inter.
    destruct (in_dec string_dec v (svars a)), (in_dec string_dec v (svars b)); tauto.
  Qed.
  Lemma NoDup_b_vars : NoDup (b_vars o a b).
  Proof.
    unfold b_vars. apply NoDup_app_intro; [apply NoDup_b_rema| |].
    - apply NoDup_app_intro; [apply NoDup_b_remb|apply NoDup_b_inter|].
      intros x. rewrite In_b_remb, In_b_inter. tauto.
    - intros x. rewrite in_app_iff, In_b_rema, In_b_remb, In_b_inter. tauto.
  Qed.
  Lemma perm_a : NoDup (svars a) -> Permutation (svars a) (b_rema o a b ++ b_inter o a b).
  Proof.
    intros Ha. apply NoDup_Permutation; [exact Ha| |].
    - apply NoDup_app_intro; [apply NoDup_b_rema|apply NoDup_b_inter|].
      intros x. rewrite In_b_rema, In_b_inter. tauto.
    - intros x. rewrite in_app_iff, In_b_rema, In_b_inter.
      destruct (in_dec string_dec x (svars b)); tauto.
  Qed.
  Lemma perm_b : NoDup (svars b) -> Permutation (svars b) (b_remb o a b ++ b_inter o a b).
  Proof.
    intros Hb. apply NoDup_Permutation; [exact Hb| |].
    - apply NoDup_app_intro; [apply NoDup_b_remb|apply NoDup_b_inter|].
      intros x. rewrite In_b_remb, In_b_inter. tauto.
    - intros x. rewrite in_app_iff, In_b_remb, In_b_inter.
      destruct (in_dec string_dec x (svars a)); tauto.
  Qed.
End Scopes.

Lemma dget_fold_dset {K V} {E : EqDec K} (l : dict K V) : forall d k,
  NoDup (dkeys l) ->
  dget (fold_left (fun d kv => dset d (fst kv) (snd kv)) l d) k =
  match dget l k with Some v => Some v | None => dget d k end.
Proof.
  induction l as [|[k0 v0] l IH]; intros d k Hn; [reflexivity|].
  cbn [fold_left fst snd]. unfold dkeys in Hn. cbn [map fst] in Hn.
  inversion Hn as [|? ? Hk0 Hn']; subst. rewrite (IH _ _ Hn'). cbn [dget].
  destruct (eq_dec k k0) as [->|N].
  - assert (dget l k0 = None) as -> by (apply dget_None; exact Hk0). apply dget_dset_eq.
  - destruct (dget l k) as [v|]; [reflexivity|]. now apply dget_dset_ne.
Qed.

Lemma union_cards_ok a b vs : wf_struct a -> wf_struct b ->
  (forall v, In v vs -> In v (svars a) \/ In v (svars b)) ->
  vars_to_cards (dict_union (var_cards a) (var_cards b)) vs = Ok (map (b_card a b) vs).
Proof.
  intros Ha Hb Hi. apply mapM_ok. intros v Hv. unfold dget_r, dict_union, b_card.
  assert (Hnb : NoDup (dkeys (var_cards b))).
  { rewrite (var_cards_wf b Hb), (dkeys_combine _ _ (wf_cards b Hb)). apply (wf_vars b Hb). }
  rewrite (dget_fold_dset (var_cards b) (var_cards a) v Hnb).
  destruct (mem v (svars b)) eqn:Hm.
  - apply mem_In in Hm. now rewrite (card_of_get b v Hb Hm).
  - apply mem_nIn in Hm. rewrite (card_of_nIn b v Hb Hm).
    destruct (Hi v Hv) as [Hva|Hvb]; [|contradiction].
    now rewrite (card_of_get a v Ha Hva).
Qed.

(** The nested form of a factor's table, with its look-up function. *)
Definition present (f : sparse) (vs : list string) (e : env) : Prop :=
  exists k v, In (k, v) (stbl f) /\ map (env_of (svars f) k) vs = map e vs.

Record nested_of (f : sparse) (outer inner : list string) (nt : ntd) : Prop := {
  no_wf : nt_wf nt;
  no_get : forall e : env, nget nt (map e outer) (map e inner) = dget (stbl f) (map e (svars f));
  no_src : forall ko s, In (ko, s) nt -> forall ki v, In (ki, v) s ->
     exists k, In (k, v) (stbl f) /\ (ko, ki) = split_key outer inner (svars f) k;
  no_present : forall e : env, dmem nt (map e outer) = true <-> present f outer e;
  no_nil : stbl f = [] -> nt = [] }.

Lemma nested_ok f outer inner : wf_struct f -> Permutation (svars f) (outer ++ inner) ->
  exists nt, get_nested outer inner (svars f) (stbl f) = Ok nt /\ nested_of f outer inner nt.
Proof.
  intros Hw HP.
  destruct (get_nested_spec outer inner (svars f) (stbl f) (wf_vars f Hw) HP) as
    (nt & Hnt & Hwf & Hg & Hs & H0).
  { intros k v Hk. eapply key_length; eauto. }
  { apply (wf_nodup f Hw). }
  exists nt. split; [exact Hnt|].
  assert (Hsrc : forall ko s, In (ko, s) nt -> forall ki v, In (ki, v) s ->
     exists k, In (k, v) (stbl f) /\ (ko, ki) = split_key outer inner (svars f) k).
  { intros ko s Hko ki v Hki. apply Hs. unfold nget.
    rewrite (In_dget nt ko s (ntw_nodup nt Hwf) Hko).
    apply In_dget; [|exact Hki]. apply (ntw_sub nt Hwf _ _ Hko). }
  split; auto. intros e. rewrite dmem_In. split.
  - intros H. apply In_dkeys_dget in H. destruct H as (s & Hsx). apply dget_In in Hsx.
    destruct s as [|[ki v] s]; [destruct (ntw_sub nt Hwf _ _ Hsx); congruence|].
    destruct (Hsrc _ _ Hsx ki v (or_introl eq_refl)) as (k & Hk & Heq).
    exists k, v. split; [exact Hk|]. unfold split_key in Heq. injection Heq as Heq _. auto.
  - intros (k & v & Hk & Heq). specialize (Hg (env_of (svars f) k)).
    assert (Hlk : length k = length (svars f)) by (eapply key_length; eauto).
    rewrite (map_env_of _ _ (wf_vars f Hw) Hlk), (In_dget _ _ _ (wf_nodup f Hw) Hk) in Hg.
    unfold nget in Hg. rewrite Heq in Hg.
    destruct (dget nt (map e outer)) as [s|] eqn:Hs'; [|discriminate].
    eapply dget_Some_key; eauto.
Qed.

Lemma nested_or f outer inner nt (e : env) s : nested_of f outer inner nt ->
  dget nt (map e outer) = Some s -> dget_or s (map e inner) (sdef f) = sval f e.
Proof.
  intros Hn Hs. unfold sval. rewrite <- (no_get _ _ _ _ Hn e). unfold nget, dget_or.
  now rewrite Hs.
Qed.
Lemma nested_absent f outer inner nt (e : env) : nested_of f outer inner nt ->
  dget nt (map e outer) = None -> sval f e = sdef f.
Proof.
  intros Hn Hs. unfold sval. rewrite <- (no_get _ _ _ _ Hn e). unfold nget. now rewrite Hs.
Qed.

Lemma env_app_split (l1 l2 : list string) (k1 k2 : key) : NoDup (l1 ++ l2) ->
  length k1 = length l1 -> length k2 = length l2 ->
  map (env_of (l1 ++ l2) (k1 ++ k2)) l1 = k1 /\ map (env_of (l1 ++ l2) (k1 ++ k2)) l2 = k2.
Proof.
  intros Hn H1 H2.
  assert (H : map (env_of (l1 ++ l2) (k1 ++ k2)) (l1 ++ l2) = k1 ++ k2).
  { apply map_env_of; [exact Hn|]. rewrite !app_length. lia. }
  rewrite map_app in H. apply app_inj_len in H; [exact H|]. rewrite map_length. lia.
Qed.

(** What every binary operation returns, given the combinations it iterates over. *)
Record binop_result (o : oracle) (a b : sparse) (f : val -> val -> val) (r : sparse)
    (covered : env -> Prop) : Prop := {
  br_vars : svars r = b_vars o a b;
  br_cards : scards r = map (b_card a b) (svars r);
  br_def : sdef r = f (sdef a) (sdef a);
  br_nodup : NoDup (dkeys (stbl r));
  br_keys : forall k v, In (k, v) (stbl r) -> Forall2 (fun i c => i < c) k (scards r) /\
      exists e : env, k = map e (svars r) /\ covered e /\ v = f (sval a e) (sval b e);
  br_in : forall e, covered e -> sval r e = f (sval a e) (sval b e);
  br_out : forall e, ~ covered e -> sval r e = f (sdef a) (sdef a) }.

Lemma binop_core o a b f na nb na' nb' da db combos SA SB nt :
  oracle_ok o -> wf_struct a -> wf_struct b -> cards_agree a b -> sdef b = sdef a ->
  nested_of a (b_rema o a b) (b_inter o a b) na ->
  nested_of b (b_remb o a b) (b_inter o a b) nb ->
  (forall ka kb, In (ka, kb) combos ->
     sub_or na' ka da = Ok (SA ka) /\ sub_or nb' kb db = Ok (SB kb) /\
     Forall2 (fun i c => i < c) ka (map (card_of a) (b_rema o a b)) /\
     Forall2 (fun i c => i < c) kb (map (card_of b) (b_remb o a b)) /\
     (forall ki, In ki (dkeys (SA ka)) \/ In ki (dkeys (SB kb)) ->
        Forall2 (fun i c => i < c) ki (map (card_of b) (b_inter o a b)))) ->
  (forall e : env, In (map e (b_rema o a b), map e (b_remb o a b)) combos ->
     dget_or (SA (map e (b_rema o a b))) (map e (b_inter o a b)) (sdef a) = sval a e /\
     dget_or (SB (map e (b_remb o a b))) (map e (b_inter o a b)) (sdef a) = sval b e) ->
  apply_any_scope o na' nb' da db combos f (sdef a) = Ok nt ->
  exists r,
    (let* cards := vars_to_cards (dict_union (var_cards a) (var_cards b)) (b_vars o a b) in
     mk_sparse (b_vars o a b) cards (flatten_ntd nt) (f (sdef a) (sdef a))) = Ok r /\
    binop_result o a b f r (fun e => In (map e (b_rema o a b), map e (b_remb o a b)) combos).
Proof.
  intros Ho Ha Hb Hag Hd Hna Hnb Hc HV Hnt.
  destruct (apply_any_spec o na' nb' da db combos f (sdef a) SA SB (length (b_rema o a b))
              (length (b_remb o a b)) Ho) as (nt' & Hnt' & Hwf & Hsrc & Hget).
  { intros ka kb H. destruct (Hc ka kb H) as (H1 & H2 & H3 & H4 & _).
    apply Forall2_length in H3, H4. rewrite map_length in H3, H4. auto. }
  assert (nt' = nt) by congruence. subst nt'.
  rewrite (union_cards_ok a b _ Ha Hb) by (intros v; apply In_b_vars, Ho). cbn [bind].
  unfold mk_sparse. rewrite (proj2 (nodupb_iff _) (NoDup_b_vars o a b Ho)). cbn [negb].
  rewrite map_length, Nat.eqb_refl. cbn [negb].
  eexists. split; [reflexivity|].
  assert (Hlk : forall k, In k (dkeys nt) -> length k = length (b_rema o a b ++ b_remb o a b)).
  { intros k Hk. unfold dkeys in Hk. apply in_map_iff in Hk. destruct Hk as ([k' s] & <- & Hk).
    destruct (Hsrc _ _ Hk) as (ka & kb & Hin & -> & _). cbn [fst].
    destruct (Hc ka kb Hin) as (_ & _ & H3 & H4 & _).
    apply Forall2_length in H3, H4. rewrite map_length in H3, H4. rewrite !app_length. lia. }
  assert (Hval : forall e : env,
     dget (flatten_ntd nt) (map e (b_vars o a b)) =
     if mem (map e (b_rema o a b), map e (b_remb o a b)) combos
     then dget (same_scope_op o f (sdef a) (SA (map e (b_rema o a b))) (SB (map e (b_remb o a b))))
               (map e (b_inter o a b))
     else None).
  { intros e. unfold b_vars. rewrite app_assoc, map_app.
    rewrite (flatten_get (length (b_rema o a b ++ b_remb o a b)) nt _ _ Hwf Hlk) by apply map_length.
    unfold nget. rewrite map_app. rewrite Hget by apply map_length.
    destruct (mem _ combos); [|reflexivity].
    destruct (same_scope_op o f (sdef a) (SA (map e (b_rema o a b)))); reflexivity. }
  split; cbn [svars scards sdef stbl].
  - reflexivity.
  - reflexivity.
  - reflexivity.
  - rewrite (flatten_flat _ nt Hwf Hlk). eapply flat_list_keys_NoDup; eauto.
  - intros k v Hk. destruct (flatten_In _ nt k v Hwf Hlk Hk) as (k0 & s & ki & Hk0 & Hki & ->).
    destruct (Hsrc _ _ Hk0) as (ka & kb & Hin & -> & ->).
    destruct (Hc ka kb Hin) as (_ & _ & H3 & H4 & H5).
    pose proof (In_dget _ _ _ (same_scope_NoDup o f (sdef a) (SA ka) (SB kb)) Hki) as Hgi.
    rewrite (same_scope_get o f (sdef a) _ _ ki Ho) in Hgi.
    destruct (mem ki (dkeys (SA ka)) || mem ki (dkeys (SB kb))) eqn:Hm; cbn [andb] in Hgi; [|discriminate].
    apply orb_true_iff in Hm. rewrite !mem_In in Hm. specialize (H5 ki Hm).
    destruct (vneb _ _); [|discriminate]. injection Hgi as <-.
    assert (HFall : Forall2 (fun i c => i < c) ((ka ++ kb) ++ ki) (map (b_card a b) (b_vars o a b))).
    { unfold b_vars. rewrite app_assoc, map_app. apply Forall2_app; [rewrite map_app; apply Forall2_app|].
      - erewrite map_ext_in; [exact H3|]. intros v Hv. apply In_b_rema in Hv; [|exact Ho].
        unfold b_card. rewrite (proj2 (mem_nIn v (svars b))); tauto.
      - erewrite map_ext_in; [exact H4|]. intros v Hv. apply In_b_remb in Hv; [|exact Ho].
        unfold b_card. rewrite (proj2 (mem_In v (svars b))); tauto.
      - erewrite map_ext_in; [exact H5|]. intros v Hv. apply In_b_inter in Hv; [|exact Ho].
        unfold b_card. rewrite (proj2 (mem_In v (svars b))); tauto. }
    split; [exact HFall|].
    pose proof (Forall2_length _ _ _ H3) as L3. pose proof (Forall2_length _ _ _ H4) as L4.
    pose proof (Forall2_length _ _ _ H5) as L5. rewrite map_length in L3, L4, L5.
    set (e := env_of (b_vars o a b) ((ka ++ kb) ++ ki)).
    assert (He : map e (b_vars o a b) = (ka ++ kb) ++ ki).
    { apply map_env_of; [apply NoDup_b_vars, Ho|]. unfold b_vars. rewrite !app_length. lia. }
    unfold b_vars in He. rewrite app_assoc, map_app in He. apply app_inj_len in He.
    2: { rewrite map_length, !app_length. lia. }
    destruct He as [He1 He2]. rewrite map_app in He1. apply app_inj_len in He1.
    2: { rewrite map_length. lia. }
    destruct He1 as [Hea Heb].
    exists e. unfold b_vars at 1. rewrite app_assoc, map_app, map_app, Hea, Heb, He2.
    split; [reflexivity|]. split; [exact Hin|].
    destruct (HV e) as [HVa HVb]; [rewrite Hea, Heb; exact Hin|].
    rewrite Hea, He2 in HVa. rewrite Heb, He2 in HVb. now rewrite HVa, HVb.
  - intros e He. unfold sval at 1. cbn [stbl svars sdef]. rewrite Hval.
    rewrite (proj2 (mem_In _ combos) He).
    destruct (HV e He) as [HVa HVb]. rewrite (same_scope_val o f (sdef a) _ _ _ Ho).
    now rewrite HVa, HVb.
  - intros e He. unfold sval. cbn [stbl svars sdef]. rewrite Hval.
    now rewrite (proj2 (mem_nIn _ combos) He).
Qed.
