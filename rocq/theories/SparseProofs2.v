(** Proofs for marginal, reduce, potential, normalise, argmax (C07 - C10, C14). *)
From Verif Require Export SumFacts.

Lemma ddel_filter {V} (d : dict string V) v : NoDup (dkeys d) -> In v (dkeys d) ->
  ddel d v = Ok (filter (fun kv => negb (eqb v (fst kv))) d).
Proof.
  induction d as [|[k0 v0] d IH]; intros Hn Hv; [destruct Hv|].
  unfold dkeys in *. cbn [map fst] in *. inversion Hn as [|? ? Hk0 Hn']; subst. cbn [ddel filter fst].
  unfold eqb at 1. destruct (eq_dec v k0) as [->|N]; cbn [negb].
  - f_equal. symmetry. apply filter_true. intros [k x] Hx. cbn [fst]. unfold eqb.
    destruct (eq_dec k0 k) as [->|]; [|reflexivity]. exfalso. apply Hk0. apply in_map_iff. exists (k, x). auto.
  - destruct Hv as [->|Hv]; [congruence|]. rewrite (IH Hn' Hv). reflexivity.
Qed.
Lemma filter_filter {A} (f g : A -> bool) l : filter f (filter g l) = filter (fun x => g x && f x) l.
Proof.
  induction l as [|x l IH]; cbn; [reflexivity|]. destruct (g x); cbn; [destruct (f x)|]; now rewrite IH.
Qed.
Lemma NoDup_keys_filter {V} (p : string * V -> bool) (d : dict string V) :
  NoDup (dkeys d) -> NoDup (dkeys (filter p d)).
Proof.
  unfold dkeys. induction d as [|x d IH]; cbn; intros H; [constructor|].
  inversion H as [|? ? Hx Hn]; subst. destruct (p x); cbn; [constructor|]; auto.
  intros C. apply Hx. apply in_map_iff in C. destruct C as (y & Hy & C). apply filter_In in C.
  apply in_map_iff. exists y. tauto.
Qed.
Lemma ddel_all {V} (out : list string) : forall d : dict string V,
  NoDup (dkeys d) -> NoDup out -> incl out (dkeys d) ->
  foldM (fun d v => ddel d v) out d = Ok (filter (fun kv => negb (mem (fst kv) out)) d).
Proof.
  induction out as [|v out IH]; intros d Hd Ho Hi.
  - cbn. f_equal. symmetry. now apply filter_true.
  - cbn [foldM]. inversion Ho as [|? ? Hv Ho']; subst.
    rewrite (ddel_filter d v Hd) by (apply Hi; left; reflexivity). cbn [bind].
    rewrite IH; [|now apply NoDup_keys_filter|exact Ho'|].
    + rewrite filter_filter. f_equal. apply filter_ext. intros [k x]. cbn [fst mem].
      unfold eqb. destruct (eq_dec v k), (eq_dec k v); subst; try congruence; reflexivity.
    + intros w Hw. unfold dkeys. specialize (Hi w (or_intror Hw)). unfold dkeys in Hi.
      apply in_map_iff in Hi. destruct Hi as ([k x] & <- & Hk). apply in_map_iff. exists (k, x).
      split; [reflexivity|]. apply filter_In. split; [exact Hk|]. cbn [fst] in *. unfold eqb.
      destruct (eq_dec v k) as [->|]; [contradiction|reflexivity].
Qed.
Lemma dvals_filter_combine (p : string -> bool) : forall (l : list string) (m : list nat),
  length m = length l ->
  combine (filter p l) (dvals (filter (fun kv => p (fst kv)) (combine l m))) =
  filter (fun kv => p (fst kv)) (combine l m) /\
  length (dvals (filter (fun kv => p (fst kv)) (combine l m))) = length (filter p l).
Proof.
  unfold dvals. induction l as [|x l IH]; intros [|y m] H; try discriminate; [split; reflexivity|].
  cbn [combine filter fst]. destruct (IH m) as [IH1 IH2]; [cbn in H; lia|].
  destruct (p x); cbn [map snd combine length]; rewrite ?IH1, ?IH2; auto.
Qed.

Lemma marg_fold (nt : ntd) : nt_wf nt -> forall (r : table),
  NoDup (dkeys r ++ dkeys nt) ->
  foldM (fun (r : table) (os : key * table) =>
           let* p := logsumexp (dvals (snd os)) in Ok (dset r (fst os) p)) nt r
  = Ok (r ++ map (fun os => (fst os, lse (dvals (snd os)))) nt).
Proof.
  induction nt as [|[k s] nt IH]; intros [_ Hs] r Hn; cbn [foldM map].
  - now rewrite app_nil_r.
  - cbn [fst snd]. destruct (Hs k s (or_introl eq_refl)) as [_ Hne].
    destruct s as [|x s]; [congruence|]. unfold logsumexp. cbn [dvals map bind].
    unfold dkeys in Hn. cbn [map fst] in Hn.
    assert (Hk : ~ In k (dkeys r)).
    { intros C. apply NoDup_remove_2 in Hn. apply Hn, in_or_app. auto. }
    rewrite (dset_new r k _ Hk). rewrite IH.
    + rewrite <- app_assoc. reflexivity.
    + split.
      * apply NoDup_remove_1 in Hn. apply NoDup_app_elim in Hn. tauto.
      * intros k' s' H. apply (Hs k' s'). right; exact H.
    + unfold dkeys. rewrite map_app. cbn [map fst]. rewrite <- app_assoc. exact Hn.
Qed.

Lemma filter_out_perm (vars kept : list string) : NoDup vars -> NoDup kept -> incl kept vars ->
  Permutation vars (kept ++ filter (fun v => negb (mem v kept)) vars).
Proof.
  intros Hv Hk Hi. apply NoDup_Permutation; [exact Hv| |].
  - apply NoDup_app_intro; [exact Hk|now apply NoDup_filter|].
    intros x Hx Hx'. apply filter_In in Hx'. destruct Hx' as [_ Hx']. apply negb_true_iff, mem_nIn in Hx'.
    contradiction.
  - intros x. rewrite in_app_iff, filter_In. split.
    + intros Hx. destruct (mem x kept) eqn:Hm; [left; now apply mem_In|right; auto].
    + intros [Hx|[Hx _]]; auto.
Qed.

Definition marg_of (o : oracle) (f : sparse) (kept : list string) : res sparse :=
  s_marginalize o f kept true.
Lemma s_marginalize_kept o f vrs keep :
  s_marginalize o f vrs keep = marg_of o f (marginal_vars o (svars f) vrs keep).
Proof. destruct keep; reflexivity. Qed.

Lemma combine_map_In (g : string -> nat) l v c :
  In (v, c) (combine l (map g l)) <-> In v l /\ c = g v.
Proof.
  induction l as [|x l IH]; cbn; [tauto|]. rewrite IH. split.
  - intros [H|H]; [injection H as -> <-; auto|tauto].
  - intros [[->|H] Hx]; [left; congruence|tauto].
Qed.

Lemma card_of_eq f g v : wf_struct f -> wf_struct g -> (forall c, has_card f v c -> has_card g v c) ->
  In v (svars f) -> card_of f v = card_of g v.
Proof.
  intros Hf Hg H Hv. assert (H' : has_card g v (card_of f v)).
  { apply H. apply has_card_iff; auto. }
  apply has_card_iff in H'; [|exact Hg]. tauto.
Qed.

Lemma marg_spec o f kept : wf_sparse f -> zero_default f -> NoDup kept -> incl kept (svars f) ->
  exists r, marg_of o f kept = Ok r /\ wf_sparse r /\ zero_default r /\ svars r = kept /\
    (forall v c, has_card r v c <-> In v kept /\ has_card f v c) /\
    (forall rm e, NoDup rm -> (forall v, In v rm <-> In v (svars f) /\ ~ In v kept) ->
       spot r e = sum_over (card_of f) rm (spot f) e) /\
    (stbl r = [] <-> stbl f = []) /\
    Rsum (map pot (dvals (stbl r))) = Rsum (map pot (dvals (stbl f))).
Proof.
  intros Hw Hz Hk Hi. unfold marg_of, s_marginalize, marginal_vars.
  set (out := filter (fun v => negb (mem v kept)) (svars f)).
  assert (HP : Permutation (svars f) (kept ++ out)) by (apply filter_out_perm; auto; apply (wf_vars f Hw)).
  assert (Hout : forall v, In v out <-> In v (svars f) /\ ~ In v kept).
  { intros v. unfold out. rewrite filter_In, negb_true_iff, mem_nIn. tauto. }
  assert (Hoi : incl out (svars f)) by (intros v Hv; apply Hout in Hv; tauto).
  assert (Hno : NoDup out) by (apply NoDup_filter, (wf_vars f Hw)).
  destruct (nested_ok f kept out Hw HP) as (nt & -> & Hn). cbn [bind].
  rewrite (marg_fold nt (no_wf _ _ _ _ Hn) []) by (cbn; apply (ntw_nodup _ (no_wf _ _ _ _ Hn))).
  cbn [bind app].
  assert (Hkeys : dkeys (var_cards f) = svars f).
  { rewrite (var_cards_wf f Hw). apply dkeys_combine, (wf_cards f Hw). }
  rewrite (ddel_all out (var_cards f)); [|rewrite Hkeys; apply (wf_vars f Hw)|exact Hno|now rewrite Hkeys].
  cbn [bind]. rewrite (vars_to_cards_ok f kept Hw Hi). cbn [bind].
  unfold mk_sparse. rewrite (proj2 (nodupb_iff kept) Hk), map_length, Nat.eqb_refl. cbn [negb].
  set (t := map (fun os : key * table => (fst os, lse (dvals (snd os)))) nt).
  eexists. split; [reflexivity|].
  assert (Hlp : forall k s, In (k, s) nt -> forall v, In v (dvals s) -> is_lp v).
  { intros k s Hs v Hv. unfold dvals in Hv. apply in_map_iff in Hv. destruct Hv as ([ki v'] & <- & Hki).
    destruct (no_src _ _ _ _ Hn _ _ Hs _ _ Hki) as (k0 & Hk0 & _). cbn [snd].
    eapply wf_vals; eauto. }
  assert (Hwf : wf_sparse {| svars := kept; scards := map (card_of f) kept; stbl := t; sdef := NInf |}).
  { split; [split|]; cbn [svars scards stbl].
    - exact Hk.
    - apply map_length.
    - intros k v Hkv. unfold t in Hkv. apply in_map_iff in Hkv. destruct Hkv as ([ko s] & H & Hin).
      cbn [fst snd] in H. injection H as <- _.
      apply (src_range_outer f kept out nt ko Hw Hn Hi Hoi). unfold dkeys. apply in_map_iff. exists (ko, s). auto.
    - unfold t. rewrite (dkeys_map (fun s => lse (dvals s))). apply (ntw_nodup _ (no_wf _ _ _ _ Hn)).
    - intros k v Hkv. unfold t in Hkv. apply in_map_iff in Hkv. destruct Hkv as ([ko s] & H & Hin).
      cbn [fst snd] in H. injection H as _ <-. apply lse_lp. eapply Hlp; eauto. }
  split; [exact Hwf|]. split; [reflexivity|]. split; [reflexivity|].
  assert (Hspot : forall rm e, NoDup rm -> (forall v, In v rm <-> In v (svars f) /\ ~ In v kept) ->
    spot {| svars := kept; scards := map (card_of f) kept; stbl := t; sdef := NInf |} e =
    sum_over (card_of f) rm (spot f) e).
  { intros rm e Hrm Hrmi.
    assert (HPr : Permutation rm out).
    { apply NoDup_Permutation; auto. intros v. rewrite Hrmi, Hout. reflexivity. }
    rewrite (sum_over_perm (card_of f) rm out (spot f) HPr Hrm (spot_ext' f)).
    change (spot f) with (fun e => pot (sval f e)).
    rewrite (inner_sum pot f kept out nt e Hw); [|rewrite Hz; reflexivity|exact HP|exact Hn].
    unfold spot, sval. cbn [stbl svars sdef]. unfold t. rewrite (dget_map (fun s => lse (dvals s))).
    destruct (dget nt (map e kept)) as [s|] eqn:Hs; cbn [option_map].
    - apply lse_lp. eapply Hlp. eapply dget_In; eauto.
    - reflexivity. }
  split; [|split; [exact Hspot|split]].
  - intros v c. unfold has_card at 1. cbn [svars scards]. rewrite combine_map_In.
    rewrite (has_card_iff f v c Hw). split; [intros [H1 ->]|intros [H1 [_ ->]]]; auto.
  - cbn [stbl]. unfold t. split.
    + intros H. apply map_eq_nil in H. destruct (stbl f) as [|[k v] l] eqn:Ht; [reflexivity|].
      assert (Hg := no_get _ _ _ _ Hn (env_of (svars f) k)). rewrite H in Hg. unfold nget in Hg. cbn [dget] in Hg.
      rewrite (map_env_of (svars f) k (wf_vars f Hw)) in Hg.
      2: { eapply key_length; [exact Hw|]. rewrite Ht. left; reflexivity. }
      rewrite Ht in Hg. cbn [dget] in Hg. destruct (eq_dec k k); congruence.
    + intros H. rewrite (no_nil _ _ _ _ Hn H). reflexivity.
  - set (r := {| svars := kept; scards := map (card_of f) kept; stbl := t; sdef := NInf |}) in *.
    rewrite <- (total_sum pot f (fun _ => 0) Hw) by (rewrite Hz; reflexivity).
    change t with (stbl r). rewrite <- (total_sum pot r (fun _ => 0) Hwf) by reflexivity.
    change (fun e => pot (sval f e)) with (spot f). change (fun e => pot (sval r e)) with (spot r).
    rewrite (sum_over_perm (card_of f) _ _ (spot f) HP (wf_vars f Hw) (spot_ext' f)).
    rewrite sum_over_app. cbn [svars r].
    rewrite (sum_over_ext_card (card_of r) (card_of f)).
    + apply sum_over_ext_g. intros e. apply Hspot; auto.
    + intros v Hv. apply card_of_eq; [exact Hwf|exact Hw| |exact Hv].
      intros c H. unfold has_card in H. cbn [r svars scards] in H. apply combine_map_In in H.
      apply has_card_iff; [exact Hw|]. split; [apply Hi; tauto|tauto].
Qed.

Lemma weight_spec f : wf_sparse f -> zero_default f -> stbl f <> [] -> forall e,
  s_weight f = Ok (Fin (sum_over (card_of f) (svars f) (spot f) e)).
Proof.
  intros Hw Hz Hne e. unfold s_weight, logsumexp.
  destruct (dvals (stbl f)) as [|v l] eqn:Hd.
  { unfold dvals in Hd. apply map_eq_nil in Hd. congruence. }
  rewrite <- Hd. cbn [bind]. f_equal.
  assert (Hlp : forall v, In v (dvals (stbl f)) -> is_lp v).
  { intros w H. unfold dvals in H. apply in_map_iff in H. destruct H as ([k w'] & <- & H).
    eapply wf_vals; eauto. }
  destruct (lse_lp _ Hlp) as [H1 H2].
  change (spot f) with (fun e => pot (sval f e)).
  rewrite (total_sum pot f e Hw) by (rewrite Hz; reflexivity).
  rewrite <- H2. destruct (lse (dvals (stbl f))); cbn in *; try tauto; reflexivity.
Qed.

(** C08 *)
Lemma reduce_spec f vrs values : wf_sparse f -> zero_default f -> NoDup vrs -> incl vrs (svars f) ->
  (exists k v, In (k, v) (stbl f) /\ map (env_of (svars f) k) vrs = values) ->
  exists r, s_reduce f vrs values = Ok r /\ wf_sparse r /\ zero_default r /\
    svars r = filter (fun v => negb (mem v vrs)) (svars f) /\
    (forall v c, has_card r v c <-> has_card f v c /\ ~ In v vrs) /\
    (forall e, map e vrs = values -> spot r e = spot f e).
Proof.
  intros Hw Hz Hk Hi Hpres. unfold s_reduce.
  set (out := filter (fun v => negb (mem v vrs)) (svars f)).
  assert (HP : Permutation (svars f) (vrs ++ out)) by (apply filter_out_perm; auto; apply (wf_vars f Hw)).
  assert (Hout : forall v, In v out <-> In v (svars f) /\ ~ In v vrs).
  { intros v. unfold out. rewrite filter_In, negb_true_iff, mem_nIn. tauto. }
  assert (Hoi : incl out (svars f)) by (intros v Hv; apply Hout in Hv; tauto).
  assert (Hno : NoDup out) by (apply NoDup_filter, (wf_vars f Hw)).
  destruct (nested_ok f vrs out Hw HP) as (nt & -> & Hn). cbn [bind].
  destruct Hpres as (k0 & v0 & Hk0 & Hv0).
  assert (Hdm : dmem nt values = true).
  { rewrite <- Hv0. apply (no_present _ _ _ _ Hn (env_of (svars f) k0)). exists k0, v0. auto. }
  unfold dmem in Hdm. destruct (dget nt values) as [s|] eqn:Hs; [|discriminate]. clear Hdm.
  unfold dget_r. rewrite Hs. cbn [bind].
  assert (Hkeys : dkeys (var_cards f) = svars f).
  { rewrite (var_cards_wf f Hw). apply dkeys_combine, (wf_cards f Hw). }
  rewrite (ddel_all vrs (var_cards f)); [|rewrite Hkeys; apply (wf_vars f Hw)|exact Hk|now rewrite Hkeys].
  cbn [bind]. rewrite (var_cards_wf f Hw).
  destruct (dvals_filter_combine (fun v => negb (mem v vrs)) (svars f) (scards f) (wf_cards f Hw)) as [Hc1 Hc2].
  fold out in Hc1, Hc2.
  set (cs := dvals (filter (fun kv : string * nat => negb (mem (fst kv) vrs)) (combine (svars f) (scards f)))) in *.
  unfold mk_sparse. rewrite (proj2 (nodupb_iff out) Hno), Hc2, Nat.eqb_refl. cbn [negb].
  eexists. split; [reflexivity|].
  assert (Hhc : forall v c, In (v, c) (combine out cs) <-> has_card f v c /\ ~ In v vrs).
  { intros v c. rewrite Hc1, filter_In. cbn [fst]. rewrite negb_true_iff, mem_nIn. reflexivity. }
  assert (Hcs : cs = map (card_of f) out).
  { assert (forall l m, length m = length l -> (forall v c, In (v, c) (combine l m) -> c = card_of f v) ->
        m = map (card_of f) l) as Hgen.
    { induction l as [|x l IH]; intros [|y m] Hl H; try discriminate; [reflexivity|].
      cbn [map]. f_equal; [apply H; left; reflexivity|]. apply IH; [cbn in Hl; lia|].
      intros v c Hvc. apply H. right; exact Hvc. }
    apply Hgen; [exact Hc2|]. intros v c H. apply Hhc in H. destruct H as [H _].
    apply has_card_iff in H; [tauto|exact Hw]. }
  pose proof (dget_In _ _ _ Hs) as Hsin.
  split.
  { split; [split|]; cbn [svars scards stbl].
    - exact Hno.
    - exact Hc2.
    - intros k v Hkv. rewrite Hcs. apply (src_range f vrs out nt _ s k v Hw Hn Hi Hoi Hsin Hkv).
    - apply (ntw_sub nt (no_wf _ _ _ _ Hn) _ _ Hsin).
    - intros k v Hkv. destruct (no_src _ _ _ _ Hn _ _ Hsin _ _ Hkv) as (k1 & Hk1 & _). eapply wf_vals; eauto. }
  split; [reflexivity|]. split; [reflexivity|]. split; [exact Hhc|].
  intros e He. unfold spot. f_equal. rewrite <- (nested_or f vrs out nt e s Hn); [|congruence].
  unfold sval. cbn [svars stbl sdef]. unfold dget_or. rewrite Hz. reflexivity.
Qed.

Lemma reduce_missing f vrs values : wf_struct f -> NoDup vrs -> incl vrs (svars f) ->
  length values = length vrs ->
  ~ (exists k v, In (k, v) (stbl f) /\ map (env_of (svars f) k) vrs = values) ->
  s_reduce f vrs values = Err KeyError.
Proof.
  intros Hw Hk Hi Hl Hno. unfold s_reduce.
  destruct (nested_ok f vrs (filter (fun v => negb (mem v vrs)) (svars f)) Hw) as (nt & -> & Hn).
  { apply filter_out_perm; auto. apply (wf_vars f Hw). }
  cbn [bind]. unfold dget_r. destruct (dget nt values) as [s|] eqn:Hs; [|reflexivity].
  exfalso. apply Hno.
  assert (Hm : map (env_of vrs values) vrs = values) by (apply map_env_of; auto).
  assert (Hd : dmem nt (map (env_of vrs values) vrs) = true).
  { rewrite Hm. unfold dmem. now rewrite Hs. }
  apply (no_present _ _ _ _ Hn) in Hd. destruct Hd as (k & v & H1 & H2). exists k, v.
  split; [exact H1|]. congruence.
Qed.

(** C09 *)
Lemma mapM_py_nth (a : key) idx : (forall i, In i idx -> i < length a) ->
  mapM (py_nth a) idx = Ok (map (fun i => nth i a 0) idx).
Proof.
  intros H. apply mapM_ok. intros i Hi. unfold py_nth.
  now rewrite (nth_error_nth' a 0 (H i Hi)).
Qed.

(** The key the code actually looks up. *)
Definition pot_key (vars vrs : list string) (a : key) : key :=
  map (fun v => nth (match index_opt v vars with Some i => i | None => 0 end) a 0) vrs.

Lemma potential_lookup f vrs a : wf_struct f -> Permutation (svars f) vrs -> length a = length vrs ->
  s_potential f vrs a =
  match dget (stbl f) (pot_key (svars f) vrs a) with Some v => Ok (vexp v) | None => Err KeyError end.
Proof.
  intros Hw HP Hl. unfold s_potential.
  assert (seteqb vrs (svars f) = true) as ->.
  { apply seteqb_iff. intros x. split; apply Permutation_in; [symmetry|]; exact HP. }
  cbn [py_assert bind].
  assert (Hidx : mapM (py_index (svars f)) vrs =
     Ok (map (fun v => match index_opt v (svars f) with Some i => i | None => 0 end) vrs)).
  { apply mapM_ok. intros v Hv. unfold py_index.
    destruct (index_opt_In v (svars f)) as (i & ->); [|reflexivity].
    eapply Permutation_in; [symmetry|]; eauto. }
  rewrite Hidx. cbn [bind]. rewrite mapM_py_nth.
  - cbn [bind]. unfold dget_r, pot_key. rewrite map_map.
    destruct (dget (stbl f) _) as [v|]; reflexivity.
  - intros i Hi. apply in_map_iff in Hi. destruct Hi as (v & <- & Hv).
    destruct (index_opt_In v (svars f)) as (i & Hi); [eapply Permutation_in; [symmetry|]; eauto|].
    rewrite Hi. apply index_opt_nth in Hi. apply Permutation_length in HP.
    assert (i < length (svars f)) by (apply nth_error_Some; congruence). lia.
Qed.

(** For arrangements of the scope that are their own inverse (in particular the factor's own
    order and every single swap) the look-up is right. *)
Lemma pot_key_involution f vrs a (e : env) : wf_struct f -> Permutation (svars f) vrs ->
  length a = length vrs -> map e vrs = a ->
  (forall i v, nth_error vrs i = Some v ->
     exists j w, nth_error (svars f) j = Some v /\ nth_error vrs j = Some w /\
                 nth_error (svars f) i = Some w) ->
  pot_key (svars f) vrs a = map e (svars f).
Proof.
  intros Hw HP Hl He Hinv. unfold pot_key. apply nth_error_ext. intros i.
  destruct (nth_error vrs i) as [v|] eqn:Hv.
  - destruct (Hinv i v Hv) as (j & w & Hj & Hwj & Hwi).
    rewrite (map_nth_error _ _ _ Hv), (map_nth_error _ _ _ Hwi). f_equal.
    rewrite (index_opt_nth_NoDup _ _ _ (wf_vars f Hw) Hj). subst a.
    erewrite nth_error_nth; [reflexivity|]. now apply map_nth_error.
  - apply nth_error_None in Hv.
    assert (nth_error (map e (svars f)) i = None) as ->.
    { apply nth_error_None. rewrite map_length. apply Permutation_length in HP. lia. }
    apply nth_error_None. now rewrite map_length.
Qed.

Lemma potential_spec f vrs (e : env) : wf_sparse f -> zero_default f -> Permutation (svars f) vrs ->
  (forall i v, nth_error vrs i = Some v ->
     exists j w, nth_error (svars f) j = Some v /\ nth_error vrs j = Some w /\
                 nth_error (svars f) i = Some w) ->
  In (map e (svars f)) (dkeys (stbl f)) ->
  s_potential f vrs (map e vrs) = Ok (Fin (spot f e)).
Proof.
  intros Hw Hz HP Hinv Hin. rewrite (potential_lookup f vrs _ Hw HP) by apply map_length.
  rewrite (pot_key_involution f vrs _ e Hw HP (map_length _ _) eq_refl Hinv).
  unfold spot, sval. apply In_dkeys_dget in Hin. destruct Hin as (v & Hv). rewrite Hv.
  apply dget_In in Hv. apply (wf_vals f Hw) in Hv. destruct v; cbn in *; try tauto; reflexivity.
Qed.

(** C10 *)
Lemma s_copy_ok f : wf_struct f -> s_copy f = Ok f.
Proof.
  intros Hw. unfold s_copy, mk_sparse. rewrite (proj2 (nodupb_iff _) (wf_vars f Hw)), (wf_cards f Hw), Nat.eqb_refl.
  destruct f; reflexivity.
Qed.

Definition total (f : sparse) : R := Rsum (map pot (dvals (stbl f))).
Lemma total_spec f e : wf_struct f -> zero_default f ->
  sum_over (card_of f) (svars f) (spot f) e = total f.
Proof.
  intros Hw Hz. change (spot f) with (fun e => pot (sval f e)).
  apply total_sum; [exact Hw|]. rewrite Hz. reflexivity.
Qed.
Lemma tbl_lp f : wf_sparse f -> forall v, In v (dvals (stbl f)) -> is_lp v.
Proof.
  intros Hw w H. unfold dvals in H. apply in_map_iff in H. destruct H as ([k w'] & <- & H).
  eapply wf_vals; eauto.
Qed.
Definition norm_of (f : sparse) : sparse :=
  {| svars := svars f; scards := scards f;
     stbl := map (fun kv => (fst kv, vsub (snd kv) (Fin (ln (total f))))) (stbl f); sdef := sdef f |}.

Lemma normalize_ok f : wf_sparse f -> (0 < total f)%R -> s_normalize f = Ok (norm_of f).
Proof.
  intros Hw Hp. unfold s_normalize. rewrite (s_copy_ok f Hw). cbn [bind]. unfold logsumexp.
  destruct (dvals (stbl f)) as [|v l] eqn:Hd.
  { exfalso. unfold total in Hp. rewrite Hd in Hp. cbn in Hp. lra. }
  rewrite <- Hd. rewrite (lse_pos _ (tbl_lp f Hw) Hp). reflexivity.
Qed.
Lemma vsub_fin_lp x r : is_lp x -> is_lp (vsub x (Fin r)) /\ pot (vsub x (Fin r)) = (pot x * / exp r)%R.
Proof.
  destruct x as [|a| |]; cbn; intros; try tauto.
  - split; [exact I|]. ring.
  - split; [exact I|]. rewrite exp_plus, exp_Ropp. reflexivity.
Qed.
Lemma norm_wf f : wf_sparse f -> wf_sparse (norm_of f).
Proof.
  intros Hw. pose proof (wf_s f Hw) as [H1 H2 H3 H4]. split; [split|]; cbn [norm_of svars scards stbl]; auto.
  - intros k v Hk. apply in_map_iff in Hk. destruct Hk as ([k' v'] & H & Hk). injection H as <- _. eauto.
  - now rewrite (dkeys_map (fun v => vsub v (Fin (ln (total f))))).
  - intros k v Hk. apply in_map_iff in Hk. destruct Hk as ([k' v'] & H & Hk). injection H as _ <-.
    apply vsub_fin_lp. eapply wf_vals; eauto.
Qed.
Lemma norm_val f e : zero_default f -> sval (norm_of f) e = vsub (sval f e) (Fin (ln (total f))).
Proof.
  intros Hz. unfold sval. cbn [norm_of svars stbl sdef].
  rewrite (dget_map (fun v => vsub v (Fin (ln (total f))))).
  destruct (dget (stbl f) (map e (svars f))); cbn [option_map]; [reflexivity|]. now rewrite Hz.
Qed.
Lemma norm_pot f e : wf_sparse f -> zero_default f -> (0 < total f)%R ->
  spot (norm_of f) e = (/ total f * spot f e)%R.
Proof.
  intros Hw Hz Hp. unfold spot. rewrite (norm_val f e Hz).
  destruct (vsub_fin_lp (sval f e) (ln (total f))) as [_ ->].
  - apply sval_lp; auto. now apply zd_lp.
  - rewrite exp_ln by exact Hp. ring.
Qed.
Lemma normalize_spec f : wf_sparse f -> zero_default f ->
  (forall e, 0 < sum_over (card_of f) (svars f) (spot f) e)%R ->
  exists r c, s_normalize f = Ok r /\ wf_sparse r /\ zero_default r /\
    svars r = svars f /\ scards r = scards f /\ (0 < c)%R /\
    (forall e, spot r e = (c * spot f e)%R) /\
    (forall e, sum_over (card_of f) (svars f) (spot r) e = 1%R).
Proof.
  intros Hw Hz Hp. assert (Ht : (0 < total f)%R) by (rewrite <- (total_spec f (fun _ => 0) Hw Hz); apply Hp).
  exists (norm_of f), (/ total f)%R. split; [now apply normalize_ok|]. split; [now apply norm_wf|].
  split; [exact Hz|]. split; [reflexivity|]. split; [reflexivity|].
  split; [now apply Rinv_0_lt_compat|]. split; [intros e; now apply norm_pot|].
  intros e. rewrite (sum_over_ext_g _ _ _ (fun e => / total f * spot f e)%R) by (intros; now apply norm_pot).
  rewrite sum_over_scal, (total_spec f e Hw Hz). field. lra.
Qed.

(** C14 *)
Lemma vltb_pot x y : is_lp x -> is_lp y -> vltb x y = true -> (pot x < pot y)%R.
Proof.
  destruct x as [|a| |], y as [|b| |]; cbn; intros; try tauto; try discriminate.
  - apply exp_pos.
  - unfold Rlt_b in *. destruct (Rlt_dec a b); [now apply exp_increasing|discriminate].
Qed.
Lemma vltb_pot_false x y : is_lp x -> is_lp y -> vltb x y = false -> (pot y <= pot x)%R.
Proof.
  destruct x as [|a| |], y as [|b| |]; cbn; intros; try tauto; try discriminate; try lra.
  - pose proof (exp_pos a). lra.
  - unfold Rlt_b in *. destruct (Rlt_dec a b) as [|N]; [discriminate|].
    apply Rnot_lt_le in N. destruct N as [N|<-]; [left; now apply exp_increasing|right; reflexivity].
Qed.
Lemma argmax_fold (rest : table) : forall best : key * val,
  is_lp (snd best) -> (forall k v, In (k, v) rest -> is_lp v) ->
  let m := fold_left (fun best x => if vltb (snd best) (snd x) then x else best) rest best in
  In m (best :: rest) /\ (forall k v, In (k, v) (best :: rest) -> pot v <= pot (snd m))%R.
Proof.
  induction rest as [|[k0 v0] rest IH]; intros best Hb Hr m.
  - split; [left; reflexivity|]. intros k v [->|[]]. cbn. lra.
  - subst m. cbn [fold_left snd].
    assert (H0 : is_lp v0) by (eapply Hr; left; reflexivity).
    destruct (vltb (snd best) v0) eqn:Hlt.
    + destruct (IH (k0, v0) H0) as [I1 I2]; [intros k v H; apply (Hr k v); right; exact H|].
      split; [right; exact I1|]. intros k v [->|[H|H]].
      * pose proof (vltb_pot _ _ Hb H0 Hlt). specialize (I2 k0 v0 (or_introl eq_refl)). cbn [snd] in *. lra.
      * apply (I2 k v). left; exact H.
      * apply (I2 k v). right; exact H.
    + destruct (IH best Hb) as [I1 I2]; [intros k v H; apply (Hr k v); right; exact H|].
      split.
      * destruct I1 as [I1|I1]; [left; exact I1|right; right; exact I1].
      * intros k v [->|[H|H]].
        -- apply (I2 k v). left; reflexivity.
        -- injection H as -> ->. pose proof (vltb_pot_false _ _ Hb H0 Hlt).
           destruct best as [kb vb]. specialize (I2 kb vb (or_introl eq_refl)). cbn [snd] in *. lra.
        -- apply (I2 k v). right; exact H.
Qed.
Lemma argmax_spec f : wf_sparse f -> zero_default f -> stbl f <> [] ->
  exists k, s_argmax f = Ok k /\ In k (dkeys (stbl f)) /\
    (forall e, map e (svars f) = k -> forall e', spot f e' <= spot f e)%R.
Proof.
  intros Hw Hz Hne. unfold s_argmax. destruct (stbl f) as [|kv rest] eqn:Ht; [congruence|].
  assert (Hlp : forall k v, In (k, v) (kv :: rest) -> is_lp v).
  { intros k v H. eapply (wf_vals f Hw k v). now rewrite Ht. }
  destruct (argmax_fold rest kv) as [I1 I2].
  { destruct kv as [k v]. apply (Hlp k v). left; reflexivity. }
  { intros k v H. apply (Hlp k v). right; exact H. }
  set (m := fold_left _ rest kv) in *. exists (fst m). split; [reflexivity|].
  split. { unfold dkeys. change (fst m) with (fst m). now apply in_map. }
  intros e He e'. unfold spot, sval. rewrite He.
  assert (Hm : dget (stbl f) (fst m) = Some (snd m)).
  { rewrite Ht. apply In_dget; [|destruct m; exact I1]. rewrite <- Ht. apply (wf_nodup f Hw). }
  rewrite Hm. destruct (dget (stbl f) (map e' (svars f))) as [v|] eqn:Hv.
  - apply dget_In in Hv. rewrite Ht in Hv. eauto.
  - rewrite Hz. cbn. apply pot_nonneg.
Qed.
