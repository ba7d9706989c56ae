(** Observing variables of a Gaussian. *)
From Verif Require Export GaussOps2.
#[global] Set Bullet Behavior "Strict Subproofs".

Definition sym_prec (f : gauss) : Prop := forall p, ga_can f = Some p -> symm (fst (fst p)).
Lemma get_can_symm f f' K h g : wf_gauss f -> sym_prec f -> get_can f = Ok (f', (K, h, g)) -> symm K.
Proof.
  intros W S E. pose proof W as (Hd & Hf & Hc & Hv). unfold get_can in E.
  destruct (ga_can f) as [[[K0 h0] g0]|] eqn:Ec.
  - unfold update_canform in E. rewrite Ec in E. cbn [bind] in E. rewrite Ec in E. injection E as <- <- <- <-.
    exact (S _ Ec).
  - destruct (ga_cov f) as [[[C m] w]|] eqn:Ev; [|destruct Hf; congruence].
    destruct (Hv _ eq_refl) as (Hs & Hsym & Hdet).
    destruct f as [vars vac can cov]. cbn [ga_can ga_cov ga_vars ga_vac] in *. subst can cov.
    rewrite (update_canform_cov vars vac C m w Hs Hdet) in E. cbn [bind ga_can] in E. injection E as <- <- <- <-.
    now apply symm_minv.
Qed.
Lemma named_sel K vars xs ys u v : NoDup vars -> incl xs vars -> incl ys vars -> In u xs -> In v ys ->
  ent (msel K (map (pos vars) xs) (map (pos vars) ys)) (pos xs u) (pos ys v) = named_entry K vars u v.
Proof.
  intros Hd Hx Hy Hu Hv. cbn [msel ent].
  destruct (pos_nth xs u Hu) as (Iu & Nu). destruct (pos_nth ys v Hv) as (Iv & Nv).
  rewrite !nth_map_pos by assumption. rewrite Nu, Nv.
  destruct (pos_nth vars u (Hx u Hu)) as (Ju & Mu). destruct (pos_nth vars v (Hy v Hv)) as (Jv & Mv).
  rewrite <- Mu at 2. rewrite <- Mv at 2. now rewrite nth_name_entry.
Qed.
Lemma named_sel_col h vars xs u : NoDup vars -> incl xs vars -> In u xs ->
  ent (msel h (map (pos vars) xs) [0]) (pos xs u) 0 = named_coord h vars u.
Proof.
  intros Hd Hx Hu. cbn [msel ent nth]. destruct (pos_nth xs u Hu) as (Iu & Nu).
  rewrite nth_map_pos by assumption. rewrite Nu. destruct (pos_nth vars u (Hx u Hu)) as (Ju & Mu).
  rewrite <- Mu at 2. now rewrite nth_name_coord.
Qed.
Lemma named_pos A vs u v : In u vs -> In v vs -> named_entry A vs u v = ent A (pos vs u) (pos vs v).
Proof.
  intros Hu Hv. unfold named_entry, pos.
  destruct (index_opt_In u vs Hu) as (i & ->). destruct (index_opt_In v vs Hv) as (j & ->). reflexivity.
Qed.
Lemma named_pos1 A vs u : In u vs -> named_coord A vs u = ent A (pos vs u) 0.
Proof. intros Hu. unfold named_coord, pos. destruct (index_opt_In u vs Hu) as (i & ->). reflexivity. Qed.
Lemma rsum_pos vs (f : nat -> R) : NoDup vs -> rsum (length vs) f = Rsum (map (fun v => f (pos vs v)) vs).
Proof.
  intros Hd. rewrite <- rsum_list. apply rsum_ext. intros i Hi. now rewrite pos_of_nth.
Qed.
Lemma nth_map_pos_e (e : string -> R) vs v : In v vs -> nth (pos vs v) (map e vs) 0%R = e v.
Proof. intros H. destruct (pos_nth vs v H) as (Hi & Hn). now rewrite nth_map_e, Hn. Qed.

Lemma double_perm (F : string -> string -> R) l m : Permutation l m ->
  Rsum (map (fun u => Rsum (map (F u) l)) l) = Rsum (map (fun u => Rsum (map (F u) m)) m).
Proof.
  intros HP. rewrite (Rsum_perm _ _ (Permutation_map _ HP)). apply Rsum_ext. intros u _.
  apply Rsum_perm, Permutation_map, HP.
Qed.
Lemma double_app (F : string -> string -> R) xs ys :
  Rsum (map (fun u => Rsum (map (F u) (xs ++ ys))) (xs ++ ys)) =
  (Rsum (map (fun u => Rsum (map (F u) xs)) xs) + Rsum (map (fun u => Rsum (map (F u) ys)) xs)
   + Rsum (map (fun u => Rsum (map (F u) xs)) ys) + Rsum (map (fun u => Rsum (map (F u) ys)) ys))%R.
Proof.
  rewrite map_app, Rsum_app.
  rewrite !(Rsum_ext (fun u => Rsum (map (F u) (xs ++ ys))) (fun u => Rsum (map (F u) xs) + Rsum (map (F u) ys))%R)
    by (intros; now rewrite map_app, Rsum_app).
  rewrite !Rsum_plus. ring.
Qed.

Definition rest (f : gauss) (vrs : list string) : list string := ssort (set_diff (ga_vars f) vrs).
Lemma rest_In f vrs v : In v (rest f vrs) <-> In v (ga_vars f) /\ ~ In v vrs.
Proof.
  unfold rest. rewrite <- In_set_diff. split; intros H.
  - apply (Permutation_in _ (Permutation_sym (ssort_perm _)) H).
  - apply (Permutation_in _ (ssort_perm _) H).
Qed.
Lemma rest_NoDup f vrs : NoDup (ga_vars f) -> NoDup (rest f vrs).
Proof. intros H. apply (Permutation_NoDup (ssort_perm _)). now apply NoDup_set_diff. Qed.

Lemma split_perm (vars xs ys : list string) : NoDup vars -> NoDup xs -> NoDup ys ->
  (forall v, In v vars <-> In v xs \/ In v ys) -> (forall v, In v xs -> ~ In v ys) -> Permutation vars (xs ++ ys).
Proof.
  intros Hd Hx Hy Hin Hdis. apply NoDup_Permutation; [exact Hd|apply NoDup_app_intro; auto|].
  intros v. rewrite Hin, in_app_iff. reflexivity.
Qed.

Lemma g_reduce_spec f vrs values : wf_gauss f -> sym_prec f -> NoDup vrs -> incl vrs (ga_vars f) ->
  ~ incl (ga_vars f) vrs -> length values = length vrs ->
  exists r, g_reduce f vrs values = Ok r /\ wf_gauss r /\ sym_prec r /\ ga_vars r = rest f vrs /\
    forall e, map e vrs = values ->
      log_potential r (map e (ga_vars r)) None = log_potential f (map e (ga_vars f)) None.
Proof.
  intros W HS Hdv Hi Hni Hl. pose proof W as (Hd & _).
  destruct (get_can_wf f W) as (f' & K & h & g & E & _ & _ & Hsh & _). pose proof Hsh as (H1 & H2 & H3 & H4).
  pose proof (get_can_symm f f' K h g W HS E) as HK.
  set (xs := rest f vrs). set (vars := ga_vars f) in *.
  assert (Hxs : forall v, In v xs <-> In v vars /\ ~ In v vrs) by (intros v; apply rest_In).
  assert (Dx : NoDup xs) by now apply rest_NoDup.
  assert (Ix : incl xs vars) by (intros v Hv; now apply Hxs).
  assert (HP : Permutation vars (xs ++ vrs)).
  { apply split_perm; auto.
    - intros v. rewrite Hxs. split; [|intros [[Hv _]|Hv]; [exact Hv|now apply Hi]].
      intros Hv. destruct (in_dec string_dec v vrs); [now right|left; now split].
    - intros v Hv. now apply Hxs. }
  unfold g_reduce. fold vars. unfold py_assert. rewrite (proj2 (subsetb_incl vrs vars) Hi). cbn [bind].
  change (ssort (set_diff vars vrs)) with xs.
  rewrite (mapM_pos vars vrs Hi), (mapM_pos vars xs Ix). cbn [bind]. rewrite E. cbn [bind snd].
  set (xi := map (pos vars) xs). set (yi := map (pos vars) vrs).
  assert (Lx : length xi = length xs) by apply map_length. assert (Ly : length yi = length vrs) by apply map_length.
  assert (Rx : inr (length vars) xi) by now apply pos_inr. assert (Ry : inr (length vars) yi) by now apply pos_inr.
  assert (R0 : inr 1 [0]) by (intros i [<-|[]]; lia).
  rewrite !(mix_ok K) by (rewrite ?H1, ?H2; assumption). rewrite !(mix_ok h) by (rewrite ?H3, ?H4; assumption).
  cbn [bind].
  rewrite (mmul_ok (msel K xi yi) (mcol values)) by (cbn; congruence). cbn [bind].
  destruct (msub_ok (msel h xi [0]) (mmul0 (msel K xi yi) (mcol values))) as (hr & Ehr & N1 & N2 & N3); [reflexivity..|].
  rewrite Ehr. cbn [bind].
  assert (Nx : xs <> []).
  { intros C. apply Hni. intros v Hv. destruct (in_dec string_dec v vrs) as [Hin|Hn]; [exact Hin|].
    exfalso. assert (In v xs) as HC by now apply Hxs. rewrite C in HC. exact HC. }
  assert (Nxi : exists a l', xi = a :: l').
  { unfold xi. destruct xs as [|a l']; [congruence|]. cbn [map]. eauto. }
  destruct Nxi as (a & l' & Exi).
  assert (Em : forall (T : Type) (x y : T), match xi with [] => x | _ :: _ => y end = y) by (intros; now rewrite Exi).
  rewrite Em. clear Em. cbn [bind fst snd].
  rewrite (mmul_ok (mtr (msel h yi [0])) (mcol values)) by (cbn; congruence). cbn [bind].
  rewrite (quad_ok (length vrs)) by (cbn; congruence). cbn [bind].
  match goal with |- context [mk_can xs _ _ ?g0] => set (g' := g0) end.
  assert (Hs' : shaped (length xs) (msel K xi xi, hr, g')).
  { cbn. rewrite N1, N2. cbn. rewrite Lx. now repeat split. }
  rewrite (mk_can_ok xs (msel K xi xi) hr g' Dx Hs').
  match goal with |- exists r, Ok ?x = Ok r /\ _ => set (r := x) end. exists r. split; [reflexivity|].
  assert (Wr : wf_gauss r).
  { split; [exact Dx|]. split; [left; discriminate|]. split.
    - intros p Hp. injection Hp as <-. exact Hs'.
    - intros p Hp. discriminate. }
  split; [exact Wr|]. split.
  { intros p Hp. injection Hp as <-. cbn [fst]. apply symm_sel; [exact HK|now rewrite H1]. }
  split; [reflexivity|].
  intros e He.
  rewrite (lp_canon r r (msel K xi xi) hr g' e Wr eq_refl). change (ga_vars r) with xs.
  unfold vars. rewrite (lp_canon f f' K h g e W E). fold vars. f_equal.
  assert (G : g' = vadd (Fin (Rsum (map (fun v => named_coord h vars v * e v) vrs)
     - 1 / 2 * Rsum (map (fun u => Rsum (map (fun v => e u * named_entry K vars u v * e v) vrs)) vrs)))%R g).
  { unfold g'. cbn [mmul0 mtr msel mcol ent nr nc nth]. rewrite Ly.
    rewrite (rsum_pos vrs) by exact Hdv. unfold qsum. rewrite (rsum_pos vrs) by exact Hdv.
    rewrite (Rsum_ext _ (fun v => named_coord h vars v * e v)%R).
    2: { intros v Hv. rewrite <- He, nth_map_pos_e by exact Hv. f_equal. now apply named_sel_col. }
    rewrite (Rsum_ext (fun u => rsum _ _) (fun u => Rsum (map (fun v => e u * named_entry K vars u v * e v) vrs))%R).
    2: { intros u Hu. rewrite (rsum_pos vrs) by exact Hdv. apply Rsum_ext. intros v Hv.
         rewrite <- He, !nth_map_pos_e by assumption. f_equal. f_equal. now apply named_sel. }
    set (a1 := Rsum _). set (a2 := Rsum _).
    destruct g; cbn; try reflexivity. f_equal. ring. }
  rewrite G, vadd_fin2. f_equal. f_equal. unfold can_form.
  rewrite (double_perm (fun u v => e u * named_entry K vars u v * e v)%R _ _ HP), double_app.
  rewrite (Rsum_perm _ _ (Permutation_map (fun u => (e u * named_coord h vars u)%R) HP)), map_app, Rsum_app.
  (* the entries of the result *)
  rewrite (Rsum_ext (fun u => Rsum (map (fun v => e u * named_entry (msel K xi xi) xs u v * e v) xs))
                    (fun u => Rsum (map (fun v => e u * named_entry K vars u v * e v) xs)))%R.
  2: { intros u Hu. apply Rsum_ext. intros v Hv. rewrite (named_pos _ xs u v Hu Hv). f_equal. f_equal. now apply named_sel. }
  rewrite (Rsum_ext (fun u => e u * named_coord hr xs u)
     (fun u => e u * named_coord h vars u - Rsum (map (fun v => e u * named_entry K vars u v * e v) vrs)))%R.
  2: { intros u Hu. rewrite (named_pos1 _ xs u Hu). destruct (pos_nth xs u Hu) as (Iu & Nu).
       rewrite N3 by (cbn; lia). pose proof (named_sel_col h vars xs u Hd Ix Hu) as X. fold xi in X. rewrite X. clear X. cbn [mmul0 msel mcol ent nc].
       rewrite Ly. rewrite (rsum_pos vrs) by exact Hdv.
       rewrite Rmult_minus_distr_l. f_equal. rewrite <- Rsum_scal. apply Rsum_ext. intros v Hv.
       rewrite <- He, nth_map_pos_e by exact Hv. rewrite <- Rmult_assoc. f_equal. f_equal. now apply named_sel. }
  rewrite Rsum_minus.
  assert (Sym : (Rsum (map (fun u => Rsum (map (fun v => e u * named_entry K vars u v * e v) xs)) vrs) =
                Rsum (map (fun u => Rsum (map (fun v => e u * named_entry K vars u v * e v) vrs)) xs))%R).
  { rewrite Rsum_swap. apply Rsum_ext. intros u Hu. apply Rsum_ext. intros v Hv.
    rewrite !named_pos by auto. rewrite HK; [ring|rewrite H1; apply pos_nth; auto..]. }
  rewrite Sym.
  rewrite (Rsum_ext (fun v => named_coord h vars v * e v) (fun v => e v * named_coord h vars v))%R by (intros; ring).
  lra.
Qed.
(** Observing every variable fails. *)
Lemma g_reduce_all f vrs values : wf_gauss f -> NoDup vrs -> incl vrs (ga_vars f) -> incl (ga_vars f) vrs ->
  length values = length vrs -> g_reduce f vrs values = Err AssertionError.
Proof.
  intros W Hdv Hi Hall Hl. destruct (get_can_wf f W) as (f' & K & h & g & E & _ & _ & Hsh & _).
  pose proof Hsh as (H1 & H2 & H3 & H4). unfold g_reduce, py_assert at 1.
  rewrite (proj2 (subsetb_incl vrs (ga_vars f)) Hi). cbn [bind].
  assert (Ex : ssort (set_diff (ga_vars f) vrs) = []).
  { destruct (ssort (set_diff (ga_vars f) vrs)) as [|v l] eqn:El; [reflexivity|]. exfalso.
    assert (In v (rest f vrs)) as HC by (unfold rest; rewrite El; now left).
    apply rest_In in HC. destruct HC as (Hv & Hn). apply Hn, Hall, Hv. }
  rewrite Ex. cbn [mapM bind].
  rewrite (mapM_pos _ vrs Hi). cbn [bind]. rewrite E. cbn [bind snd].
  set (yi := map (pos (ga_vars f)) vrs).
  assert (Ry : inr (length (ga_vars f)) yi) by now apply pos_inr.
  assert (R0 : inr 1 [0]) by (intros i [<-|[]]; lia).
  assert (Ly : length yi = length vrs) by apply map_length.
  rewrite !(mix_ok K) by (rewrite ?H1, ?H2; assumption). rewrite !(mix_ok h) by (rewrite ?H3, ?H4; assumption).
  cbn [bind]. rewrite (mmul_ok (mtr (msel h yi [0])) (mcol values)) by (cbn; congruence). cbn [bind].
  rewrite (quad_ok (length vrs)) by (cbn; congruence). cbn [bind fst snd]. reflexivity.
Qed.
