(** Message passing for factor classes with strictly positive potentials on real variables
    (the Gaussian class): laws, invariant, joint.  The marginal is an iterated integral. *)
From Verif Require Export FactMarg GraphCalib.
#[global] Set Bullet Behavior "Strict Subproofs".
Local Open Scope nat_scope.

Notation renv := (string -> R) (only parsing).

(** The second difference of minus the logarithm at 0: the quadratic form of a Gaussian. *)
Definition curv (p : renv -> R) (x : renv) : R :=
  (2 * ln (p (fun _ => 0)) - ln (p x) - ln (p (fun v => - x v)))%R.
(** Integrable over [vs]: the quadratic form is positive in these directions. *)
Definition summ (p : renv -> R) (vs : list string) : Prop :=
  forall x, (forall v, ~ In v vs -> x v = 0%R) -> (exists v, x v <> 0%R) -> (0 < curv p x)%R.

Record plaws {F} (ops : fops F R) (good sound ready : F -> Prop) (pt : F -> renv -> R) : Prop := {
  pl_prod : prod_laws ops good pt;
  pl_ext : forall f e e', good f -> (forall v, In v (f_vars ops f) -> e v = e' v) -> pt f e = pt f e';
  pl_pos : forall f e, good f -> (0 < pt f e)%R;
  pl_reduce_ok : forall f vs xs v, good f -> NoDup vs -> incl vs (f_vars ops f) -> length xs = length vs ->
    In v (f_vars ops f) -> ~ In v vs -> exists r, f_reduce ops f vs xs = Ok r;
  pl_ready : forall f vs xs r, good f -> NoDup vs -> incl vs (f_vars ops f) -> length xs = length vs ->
    f_reduce ops f vs xs = Ok r -> sound r -> ready r;
  pl_mul_ready : forall a b r, good a -> good b -> f_mul ops a b = Ok r -> sound r -> ready r;
  pl_cancel_ready : forall a b r, good a -> good b -> f_cancel ops a b = Ok r -> sound r -> ready r;
  pl_sound_same : forall a f, good a -> good f -> (forall v, In v (f_vars ops f) <-> In v (f_vars ops a)) ->
    (forall e, pt f e = pt a e) -> sound a -> sound f;
  pl_sound_mul : forall a b r, good a -> good b -> incl (f_vars ops b) (f_vars ops a) -> f_mul ops a b = Ok r ->
    sound a -> sound r;
  (* cancelling a factor of a product *)
  pl_cancel : forall a b c, good a -> good b -> good c -> (forall v, In v (f_vars ops c) <-> In v (f_vars ops a)) ->
    incl (f_vars ops b) (f_vars ops a) -> (forall e, pt a e = pt c e * pt b e)%R ->
    exists r, f_cancel ops a b = Ok r /\ good r /\ (forall v, In v (f_vars ops r) <-> In v (f_vars ops a)) /\
      (forall e, pt r e = pt c e);
  (* a marginal that is computed is an integral *)
  pl_marg : forall f vs r, good f -> ready f -> vs <> [] -> NoDup vs -> incl vs (f_vars ops f) -> f_marg ops f vs = Ok r ->
    good r /\ (forall v, In v (f_vars ops r) <-> In v vs) /\
    (forall rem, NoDup rem -> (forall v, In v rem <-> In v (f_vars ops f) /\ ~ In v vs) ->
       summ (pt f) rem /\ forall e, iint rem (pt f) e (pt r e));
  (* a factor about kept variables stays a factor of the marginal *)
  pl_split : forall f a b vs r, good f -> ready f -> good a -> good b -> vs <> [] -> NoDup vs -> incl vs (f_vars ops f) ->
    (forall v, In v (f_vars ops a) <-> In v (f_vars ops f)) -> incl (f_vars ops b) vs ->
    (forall e, pt f e = pt a e * pt b e)%R -> f_marg ops f vs = Ok r ->
    exists c, good c /\ (forall v, In v (f_vars ops c) <-> In v vs) /\ (forall e, pt r e = pt c e * pt b e)%R;
  (* integrals of integrable factors, in any order *)
  pl_int : forall f ys v, good f -> NoDup ys -> incl ys (f_vars ops f) -> In v (f_vars ops f) -> ~ In v ys -> summ (pt f) ys ->
    exists h, good h /\ (forall v, In v (f_vars ops h) <-> In v (f_vars ops f) /\ ~ In v ys) /\
      forall ys' e, Permutation ys' ys -> iint ys' (pt f) e (pt h e);
  pl_app : forall f h xs ys, good f -> good h -> NoDup ys -> incl ys (f_vars ops f) ->
    (forall v, In v (f_vars ops h) <-> In v (f_vars ops f) /\ ~ In v ys) ->
    summ (pt f) ys -> (forall e, iint ys (pt f) e (pt h e)) -> incl xs (f_vars ops h) -> summ (pt h) xs ->
    summ (pt f) (xs ++ ys) }.

Lemma summ_same p vs vs' : (forall v, In v vs' <-> In v vs) -> summ p vs -> summ p vs'.
Proof. intros H S x Hx. apply S. intros v Hv. apply Hx. now rewrite H. Qed.
Lemma summ_fun p q vs : (forall e, q e = p e) -> summ p vs -> summ q vs.
Proof. intros H S x Hx He. unfold curv. rewrite !H. now apply S. Qed.
(** A factor that does not involve [vs] does not matter. *)
Lemma summ_mul (p a b : renv -> R) vs : (forall e, 0 < a e)%R -> (forall e, 0 < b e)%R ->
  (forall e e', (forall v, ~ In v vs -> e v = e' v) -> b e = b e') -> (forall e, p e = a e * b e)%R ->
  summ a vs -> summ p vs.
Proof.
  intros Pa Pb Hb Hp S x Hx He. specialize (S x Hx He). unfold curv in *. rewrite !Hp, !ln_mult by auto.
  rewrite (Hb x (fun _ => 0%R) Hx), (Hb (fun v => (- x v)%R) (fun _ => 0%R)); [lra|].
  intros v Hv. cbn beta. rewrite (Hx v Hv). ring.
Qed.

Section Pos.
Context {F : Type} (ops : fops F R) (good sound ready : F -> Prop) (pt : F -> renv -> R).
Hypothesis L : plaws ops good sound ready pt.
Let PL := pl_prod _ _ _ _ _ L.

(** ** Products of lists *)
Lemma prod_at_pos fs e : (forall f, In f fs -> good f) -> (0 < prod_at pt fs e)%R.
Proof.
  unfold prod_at. induction fs as [|f fs IH]; intros H; cbn [map]; [cbn; lra|]. rewrite Rprod_cons. apply Rmult_lt_0_compat.
  - apply (pl_pos _ _ _ _ _ L). apply H. left; reflexivity.
  - apply IH. intros; apply H; right; assumption.
Qed.
Lemma prod_at_ext fs e e' : (forall f, In f fs -> good f) -> (forall f v, In f fs -> In v (f_vars ops f) -> e v = e' v) ->
  prod_at pt fs e = prod_at pt fs e'.
Proof.
  intros Hg H. unfold prod_at. apply Rprod_ext. intros f Hf. apply (pl_ext _ _ _ _ _ L); [now apply Hg|]. intros v Hv. now apply (H f).
Qed.
Lemma mul_fold bs : (forall b, In b bs -> good b) -> forall a, good a ->
  exists r, foldM (fun acc b => f_mul ops acc b) bs a = Ok r /\ good r /\
    (forall v, In v (f_vars ops r) <-> In v (f_vars ops a) \/ exists b, In b bs /\ In v (f_vars ops b)) /\
    (forall e, pt r e = pt a e * prod_at pt bs e)%R /\
    ((forall b, In b bs -> incl (f_vars ops b) (f_vars ops a)) -> sound a -> sound r).
Proof.
  unfold prod_at. induction bs as [|b bs IH]; intros Hb a Ga; cbn [foldM map].
  - exists a. split; [reflexivity|]. split; [exact Ga|]. split; [|split; [intros e; cbn; ring|auto]].
    intros v. split; [tauto|]. intros [C|(b & [] & _)]. exact C.
  - destruct (pr_mul _ _ _ PL a b Ga (Hb b (or_introl eq_refl))) as (r1 & M1 & M2 & M3 & M4). rewrite M1. cbn [bind].
    destruct (IH (fun x Hx => Hb x (or_intror Hx)) r1 M2) as (r & R1 & R2 & R3 & R4 & R5). exists r.
    split; [exact R1|]. split; [exact R2|]. split; [|split].
    + intros v. rewrite R3, M3. split.
      * intros [[C|C]|(x & Hx & Hv)]; [now left|right; exists b; cbn; auto|right; exists x; cbn; auto].
      * intros [C|(x & [<-|Hx] & Hv)]; [tauto|tauto|right; eauto].
    + intros e. rewrite R4, M4, Rprod_cons. ring.
    + intros Hi Sa. apply R5.
      * intros x Hx v Hv. apply M3. left. exact (Hi x (or_intror Hx) v Hv).
      * apply (pl_sound_mul _ _ _ _ _ L a b r1 Ga (Hb b (or_introl eq_refl))); auto. apply Hi. left; reflexivity.
Qed.

(** ** The last messages sent along a set of paths *)
Definition pmsg (p : path F) (e : renv) : R := match p_prev p with Some m => pt (m_fac m) e | None => 1%R end.
Definition sent_facs (P : path F -> bool) (ps : list (path F)) : list F :=
  flat_map (fun p => if P p then match p_prev p with Some m => [m_fac m] | None => [] end else []) ps.
Lemma sent_prod P ps e : prod_at pt (sent_facs P ps) e = Rprod (map (fun p => if P p then pmsg p e else 1%R) ps).
Proof.
  unfold prod_at, sent_facs. induction ps as [|p ps IH]; [reflexivity|]. cbn [flat_map map]. rewrite map_app, Rprod_app, IH, Rprod_cons. f_equal.
  unfold pmsg. destruct (P p); [|reflexivity]. destruct (p_prev p); cbn; ring.
Qed.
Lemma In_sent P ps b : In b (sent_facs P ps) <-> exists p m, In p ps /\ P p = true /\ p_prev p = Some m /\ b = m_fac m.
Proof.
  unfold sent_facs. rewrite in_flat_map. split.
  - intros (p & Hp & H). destruct (P p) eqn:E; [|destruct H]. destruct (p_prev p) as [m|] eqn:Em; [|destruct H].
    destruct H as [<-|[]]. exists p, m. auto.
  - intros (p & m & Hp & E & Em & ->). exists p. split; [exact Hp|]. rewrite E, Em. left; reflexivity.
Qed.

Context (o : oracle) (final : list F) (ev : option (dict string R)) (special : dict string R).
Hypothesis Ho : oracle_ok o.
Hypothesis Gfin : forall f, In f final -> good f.
Let scopes := map (f_vars ops) final.
Let obs := all_evidence ev special.
Let sepf := graph_sep o scopes obs.
Definition spec_at (i : nat) (f : F) : dict string R := cl_spec (new_cluster ops special (i, f)).
(** The cluster potentials the first messages are computed from can be marginalised. *)
Hypothesis Hsound : forall i f r, nth_error final i = Some f ->
  f_reduce ops f (dkeys (spec_at i f)) (dvals (spec_at i f)) = Ok r -> sound r.

Definition tox (i : nat) (p : path F) (e : renv) : R := if Nat.eq_dec (p_rcv p) i then pmsg p e else 1%R.
Definition fok (S : list string) (f : F) : Prop := good f /\ forall v, In v (f_vars ops f) <-> In v S.

Record pinv (g : cgraph F R) : Prop := {
  pi_struct : struct_ok sepf g;
  pi_len : length (g_cl g) = length final;
  pi_cl : forall i c, nth_error (g_cl g) i = Some c -> exists f, nth_error final i = Some f /\
    cl_spec c = spec_at i f /\ fok (f_vars ops f) (cl_fac c) /\
    forall e, pt (cl_fac c) e = (pt f e * Rprod (map (fun p => tox i p e) (g_paths g)))%R;
  pi_prev : forall k p m, nth_error (g_paths g) k = Some p -> p_prev p = Some m ->
    exists S, sepf (p_snd p) (p_rcv p) = Some S /\ fok S (m_fac m);
  pi_recv : forall k p ci cj, nth_error (g_paths g) k = Some p -> nth_error (g_cl g) (p_snd p) = Some ci ->
    nth_error (g_cl g) (p_rcv p) = Some cj -> dget (cl_recv cj) (cl_id ci) = option_map m_fac (p_prev p);
  pi_ready : forall i c, nth_error (g_cl g) i = Some c ->
    nth_error final i = Some (cl_fac c) \/ (sound (cl_fac c) -> ready (cl_fac c)) }.

Lemma psep_In i j S v : sepf i j = Some S -> In v S ->
  (forall f, nth_error final i = Some f -> In v (f_vars ops f)) /\
  (forall f, nth_error final j = Some f -> In v (f_vars ops f)) /\ ~ In v (dkeys special).
Proof.
  intros HS Hv. apply (graph_sep_In o scopes obs i j S v Ho HS) in Hv.
  destruct Hv as (H1 & H2 & H3 & H4 & H5 & H6 & _).
  assert (G : forall i f, nth_error final i = Some f -> sc scopes i = f_vars ops f).
  { intros a f Hf. unfold sc, scopes. apply nth_error_nth. rewrite nth_error_map, Hf. reflexivity. }
  split; [|split].
  - intros f Hf. now rewrite <- (G _ _ Hf).
  - intros f Hf. now rewrite <- (G _ _ Hf).
  - intros C. apply H1. unfold obs, all_evidence. apply in_or_app. left; exact C.
Qed.
Lemma psep_NoDup i j S : sepf i j = Some S -> NoDup S.
Proof. intros H. eapply graph_sep_NoDup; eauto. Qed.
Lemma psep_sym i j : sepf i j = sepf j i.
Proof. apply graph_sep_sym. Qed.
Lemma final_good i f : nth_error final i = Some f -> good f.
Proof. intros H. apply Gfin. eapply nth_error_In; eauto. Qed.

Lemma spec_facts i f : good f ->
  NoDup (dkeys (spec_at i f)) /\ (forall v, In v (dkeys (spec_at i f)) <-> In v (f_vars ops f) /\ In v (dkeys special)) /\
  length (dvals (spec_at i f)) = length (dkeys (spec_at i f)) /\
  (forall e, agrees special e -> map e (dkeys (spec_at i f)) = dvals (spec_at i f)).
Proof.
  intros G. unfold spec_at, new_cluster. cbn [fst snd]. destruct (subset_evidence special (f_vars ops f)) as [vrs values] eqn:E.
  pose proof (pr_nodup _ _ _ PL f G) as Hn.
  destruct (subset_evidence_spec special _ vrs values Hn E) as (E1 & E2 & E3).
  cbn [cl_spec]. rewrite dict_of_NoDup by (rewrite dkeys_combine by auto; exact E1).
  assert (D : dvals (combine vrs values) = values).
  { clear - E3. unfold dvals. revert values E3. induction vrs as [|x l IH]; intros [|y m] H; try discriminate; cbn; [reflexivity|].
    f_equal. apply IH. cbn in H. lia. }
  rewrite dkeys_combine, D by auto. split; [exact E1|]. split; [exact E2|]. split; [exact E3|].
  intros e A. exact (subset_evidence_agrees special _ vrs values e Hn E A).
Qed.
(** Reducing any factor with the scope of cluster [i] by its special evidence. *)
Lemma reduced_at i f w r : nth_error final i = Some f -> good w -> (forall v, In v (f_vars ops w) <-> In v (f_vars ops f)) ->
  f_reduce ops w (dkeys (spec_at i f)) (dvals (spec_at i f)) = Ok r ->
  good r /\ (forall v, In v (f_vars ops r) <-> In v (f_vars ops f) /\ ~ In v (dkeys special)) /\
  (forall e, pt r e = pt w (over special e)).
Proof.
  intros Hf Gw Vw H. destruct (spec_facts i f (final_good i f Hf)) as (N1 & N2 & N3 & N4).
  assert (Hin : incl (dkeys (spec_at i f)) (f_vars ops w)) by (intros v Hv; apply Vw; now apply N2).
  destruct (pr_reduce _ _ _ PL w _ _ r Gw N1 Hin N3 H) as (R1 & R2 & R3).
  assert (R2' : forall v, In v (f_vars ops r) <-> In v (f_vars ops f) /\ ~ In v (dkeys special)).
  { intros v. rewrite R2, N2, Vw. destruct (in_dec string_dec v (dkeys special)); tauto. }
  split; [exact R1|]. split; [exact R2'|]. intros e. rewrite <- R3.
  - apply (pl_ext _ _ _ _ _ L); [exact R1|]. intros v Hv. apply R2' in Hv. now rewrite over_other by tauto.
  - apply N4, over_agrees.
Qed.
Lemma reduced_some i f w v : nth_error final i = Some f -> good w -> (forall v, In v (f_vars ops w) <-> In v (f_vars ops f)) ->
  In v (f_vars ops f) -> ~ In v (dkeys special) -> exists r, f_reduce ops w (dkeys (spec_at i f)) (dvals (spec_at i f)) = Ok r.
Proof.
  intros Hf Gw Vw Hv Hs. destruct (spec_facts i f (final_good i f Hf)) as (N1 & N2 & N3 & N4).
  apply (pl_reduce_ok _ _ _ _ _ L w _ _ v Gw N1); auto.
  - intros u Hu. apply Vw. now apply N2.
  - now apply Vw.
  - intros C. apply N2 in C. tauto.
Qed.

Lemma pmsg_pos g k p e : pinv g -> nth_error (g_paths g) k = Some p -> (0 < pmsg p e)%R.
Proof.
  intros IV Hp. unfold pmsg. destruct (p_prev p) as [m|] eqn:E; [|lra]. destruct (pi_prev _ IV k p m Hp E) as (S & _ & G & _).
  now apply (pl_pos _ _ _ _ _ L).
Qed.
Lemma pmsg_ext g k p S e e' : pinv g -> nth_error (g_paths g) k = Some p -> sepf (p_snd p) (p_rcv p) = Some S ->
  (forall v, In v S -> e v = e' v) -> pmsg p e = pmsg p e'.
Proof.
  intros IV Hp HS H. unfold pmsg. destruct (p_prev p) as [m|] eqn:E; [|reflexivity].
  destruct (pi_prev _ IV k p m Hp E) as (S' & HS' & G & Hv). rewrite HS in HS'. inversion HS'; subst S'.
  apply (pl_ext _ _ _ _ _ L); [exact G|]. intros v Hv'. apply H. now apply Hv.
Qed.
(** The paths into cluster [i], except those from cluster [j]. *)
Definition others (i j : nat) (p : path F) : bool := Nat.eqb (p_rcv p) i && negb (Nat.eqb (p_snd p) j).
Lemma tox_split g i j k q e : pinv g -> nth_error (g_paths g) k = Some q -> p_snd q = j -> p_rcv q = i ->
  Rprod (map (fun p => tox i p e) (g_paths g)) = (prod_at pt (sent_facs (others i j) (g_paths g)) e * pmsg q e)%R.
Proof.
  intros IV Hq Hs Hr. rewrite sent_prod.
  set (h := fun p : path F => if pair_dec (p_snd p, p_rcv p) (j, i) then pmsg p e else 1%R).
  rewrite (Rprod_ext _ (fun p => (if others i j p then pmsg p e else 1) * h p)%R).
  2:{ intros p _. unfold tox, others, h. destruct (Nat.eq_dec (p_rcv p) i) as [E1|E1].
      - rewrite (proj2 (Nat.eqb_eq _ _) E1). destruct (Nat.eq_dec (p_snd p) j) as [E2|E2].
        + rewrite (proj2 (Nat.eqb_eq _ _) E2). cbn [andb negb]. destruct (pair_dec _ _); [ring|congruence].
        + rewrite (proj2 (Nat.eqb_neq _ _) E2). cbn [andb negb]. destruct (pair_dec _ _); [congruence|ring].
      - rewrite (proj2 (Nat.eqb_neq _ _) E1). cbn [andb]. destruct (pair_dec _ _); [congruence|ring]. }
  rewrite Rprod_mult. f_equal.
  assert (Hk : nth_error (map h (g_paths g)) k = Some (pmsg q e)).
  { rewrite nth_error_map, Hq. cbn [option_map]. unfold h. destruct (pair_dec _ _) as [_|C]; [reflexivity|congruence]. }
  destruct (Rprod_split _ k _ Hk) as (A & A1 & A2). rewrite A1.
  assert (H1 : Rprod (map (fun _ : path F => 1%R) (g_paths g)) = (A * 1)%R).
  { apply A2; [now rewrite !map_length|now rewrite nth_error_map, Hq|].
    intros m Hm. rewrite !nth_error_map. destruct (nth_error (g_paths g) m) as [p|] eqn:Ep; [|reflexivity]. cbn [option_map]. unfold h.
    destruct (pair_dec _ _) as [D|_]; [|reflexivity]. exfalso. apply Hm. inversion D.
    apply (st_pair _ _ (pi_struct _ IV) m k p q Ep Hq); congruence. }
  rewrite Rprod_ones in H1 by reflexivity. replace A with 1%R by lra. ring.
Qed.
(** The messages into a cluster are good factors about unobserved variables of the cluster. *)
Lemma sent_good g i P f b : pinv g -> nth_error final i = Some f -> (forall p, P p = true -> p_rcv p = i) ->
  In b (sent_facs P (g_paths g)) -> good b /\ forall v, In v (f_vars ops b) -> In v (f_vars ops f) /\ ~ In v (dkeys special).
Proof.
  intros IV Hf HP Hb. apply In_sent in Hb. destruct Hb as (p & m & Hp & E & Em & ->). apply In_nth_error in Hp. destruct Hp as (k & Hk).
  destruct (pi_prev _ IV k p m Hk Em) as (S & HS & G & V). split; [exact G|]. intros v Hv. apply V in Hv.
  destruct (psep_In _ _ S v HS Hv) as (_ & H2 & H3). split; [apply H2; now rewrite (HP p E)|exact H3].
Qed.

(** The product of a cluster's own factor and some of its messages. *)
Lemma with_messages g i f P : pinv g -> nth_error final i = Some f -> (forall p, P p = true -> p_rcv p = i) ->
  exists w, good w /\ (forall v, In v (f_vars ops w) <-> In v (f_vars ops f)) /\
    (forall e, pt w e = pt f e * prod_at pt (sent_facs P (g_paths g)) e)%R.
Proof.
  intros IV Hf HP.
  destruct (mul_fold (sent_facs P (g_paths g)) (fun b Hb => proj1 (sent_good g i P f b IV Hf HP Hb)) f (final_good i f Hf))
    as (w & _ & W2 & W3 & W4 & _).
  exists w. split; [exact W2|]. split; [|exact W4]. intros v. rewrite W3. split; [|tauto].
  intros [C|(b & Hb & Hv)]; [exact C|]. now apply (sent_good g i P f b IV Hf HP Hb).
Qed.

Section Message.
Context (g : cgraph F R) (i j : nat) (ci cj : cluster F R) (S : list string) (fi : F) (q : path F) (kq : nat).
Hypothesis IV : pinv g.
Hypothesis Hi : nth_error (g_cl g) i = Some ci.
Hypothesis Hj : nth_error (g_cl g) j = Some cj.
Hypothesis HS : sepf i j = Some S.
Hypothesis Hfi : nth_error final i = Some fi.
Hypothesis Hq : nth_error (g_paths g) kq = Some q.
Hypothesis Hqs : p_snd q = j.
Hypothesis Hqr : p_rcv q = i.

Lemma pc_facts : cl_spec ci = spec_at i fi /\ fok (f_vars ops fi) (cl_fac ci) /\
  forall e, pt (cl_fac ci) e = (pt fi e * Rprod (map (fun p => tox i p e) (g_paths g)))%R.
Proof. destruct (pi_cl _ IV i ci Hi) as (f & H1 & H2 & H3 & H4). rewrite Hfi in H1. inversion H1; subst f. auto. Qed.
Lemma S_nonempty : exists v, In v S.
Proof.
  destruct S as [|v S']; [|exists v; left; reflexivity]. exfalso. revert HS. apply graph_sep_none_empty.
Qed.
Lemma S_in v : In v S -> In v (f_vars ops fi) /\ ~ In v (dkeys special).
Proof. intros Hv. destruct (psep_In i j S v HS Hv) as (H1 & _ & H3). split; [now apply H1|exact H3]. Qed.

(** The potential of the cluster given the special evidence. *)
Record belief_ok (b : F) : Prop := {
  bo_good : good b;
  bo_vars : forall v, In v (f_vars ops b) <-> In v (f_vars ops fi) /\ ~ In v (dkeys special);
  bo_pt : forall e, pt b e = pt (cl_fac ci) (over special e) }.
Record msg_ok (m : msg F) : Prop := {
  ms_snd : m_snd m = cl_id ci;
  ms_rcv : m_rcv m = cl_id cj;
  ms_fac : fok S (m_fac m);
  ms_int : exists b, belief_ok b /\
    forall rem, NoDup rem -> (forall v, In v rem <-> In v (f_vars ops b) /\ ~ In v S) ->
      summ (pt b) rem /\ forall e, iint rem (pt b) e (pt (m_fac m) e * pmsg q e)%R }.

Lemma reduced_sound v f1 : In v (f_vars ops fi) -> ~ In v (dkeys special) -> f_reduce ops (cl_fac ci) (dkeys (cl_spec ci)) (dvals (cl_spec ci)) = Ok f1 ->
  belief_ok f1 /\ sound f1 /\ ready f1.
Proof.
  intros Hv1 Hv2 H. destruct pc_facts as (Hsp & (Gc & Vc) & Pc). rewrite Hsp in H.
  destruct (reduced_at i fi (cl_fac ci) f1 Hfi Gc Vc H) as (R1 & R2 & R3).
  assert (SO : sound f1).
  { destruct (reduced_some i fi fi v Hfi (final_good i fi Hfi) (fun v => iff_refl _) Hv1 Hv2) as (r0 & Hr0).
    destruct (reduced_at i fi fi r0 Hfi (final_good i fi Hfi) (fun v => iff_refl _) Hr0) as (Z1 & Z2 & Z3).
    set (P := fun p : path F => Nat.eqb (p_rcv p) i).
    assert (HP : forall p, P p = true -> p_rcv p = i) by (intros p Hp; now apply Nat.eqb_eq).
    destruct (mul_fold (sent_facs P (g_paths g)) (fun b Hb => proj1 (sent_good g i P fi b IV Hfi HP Hb)) r0 Z1)
      as (w & _ & W2 & W3 & W4 & W5).
    apply (pl_sound_same _ _ _ _ _ L w f1 W2 R1).
    - intros u. rewrite R2, W3, Z2. split; [tauto|]. intros [C|(b & Hb & Hu)]; [exact C|].
      now apply (sent_good g i P fi b IV Hfi HP Hb).
    - intros e. rewrite R3, Pc, W4, Z3. f_equal. rewrite sent_prod. apply Rprod_ext. intros p Hp.
      unfold tox, P. destruct (Nat.eq_dec (p_rcv p) i) as [E|E].
      + rewrite (proj2 (Nat.eqb_eq _ _) E). apply In_nth_error in Hp. destruct Hp as (k & Hk).
        destruct (st_path _ _ (pi_struct _ IV) k p Hk) as (S' & HS').
        apply (pmsg_ext g k p S' _ _ IV Hk HS'). intros u Hu. apply over_other. now apply (psep_In _ _ S' u HS' Hu).
      + now rewrite (proj2 (Nat.eqb_neq _ _) E).
    - apply W5.
      + intros b Hb u Hu. apply Z2. now apply (sent_good g i P fi b IV Hfi HP Hb).
      + exact (Hsound i fi r0 Hfi Hr0). }
  split; [split; assumption|]. split; [exact SO|].
  destruct (spec_facts i fi (final_good i fi Hfi)) as (N1 & N2 & N3 & N4).
  apply (pl_ready _ _ _ _ _ L (cl_fac ci) _ _ f1 Gc N1) in H; auto. intros u Hu. apply Vc. now apply N2.
Qed.

(** Once the cluster potential has been reduced and marginalised the message is made. *)
Lemma message_after f1 f2 : f_reduce ops (cl_fac ci) (dkeys (cl_spec ci)) (dvals (cl_spec ci)) = Ok f1 -> f_marg ops f1 S = Ok f2 ->
  exists m, make_message ops ci (cl_id cj) = Ok m /\ msg_ok m.
Proof.
  intros H1 H2. unfold make_message, dget_r.
  pose proof (pi_struct _ IV) as ST. rewrite (st_sep _ _ ST i j ci cj Hi Hj), HS. cbn [bind]. rewrite H1. cbn [bind]. rewrite H2. cbn [bind].
  assert (B0 : belief_ok f1 /\ sound f1 /\ ready f1).
  { destruct S_nonempty as (v & Hv). destruct (S_in v Hv) as (Hv1 & Hv2). exact (reduced_sound v f1 Hv1 Hv2 H1). }
  destruct B0 as ([B1 B2 B3] & _ & Rd).
  assert (SN : S <> []) by (destruct S_nonempty as (v & Hv); intros C; rewrite C in Hv; destruct Hv).
  assert (SI : incl S (f_vars ops f1)) by (intros v Hv; apply B2; now apply S_in).
  destruct (pl_marg _ _ _ _ _ L f1 S f2 B1 Rd SN (psep_NoDup i j S HS) SI H2) as (M1 & M2 & M3).
  pose proof (pi_recv _ IV kq q cj ci Hq) as Hr. rewrite Hqs, Hqr in Hr. rewrite (Hr Hj Hi).
  destruct (p_prev q) as [mq|] eqn:E; cbn [option_map].
  - destruct (pi_prev _ IV kq q mq Hq E) as (S' & HS' & Gq & Vq). rewrite Hqs, Hqr, psep_sym, HS in HS'. inversion HS'; subst S'.
    destruct pc_facts as (Hsp & (Gc & Vc) & Pc).
    destruct (with_messages g i fi (others i j) IV Hfi) as (w & W1 & W2 & W3).
    { intros p Hp. unfold others in Hp. apply andb_true_iff in Hp. now apply Nat.eqb_eq. }
    destruct S_nonempty as (v0 & Hv0). destruct (S_in v0 Hv0) as (Hv1 & Hv2).
    destruct (reduced_some i fi w v0 Hfi W1 W2 Hv1 Hv2) as (a & Ha).
    destruct (reduced_at i fi w a Hfi W1 W2 Ha) as (A1 & A2 & A3).
    destruct (pl_split _ _ _ _ _ L f1 a (m_fac mq) S f2 B1 Rd A1 Gq SN (psep_NoDup i j S HS) SI) as (c & C1 & C2 & C3); auto.
    { intros v. rewrite A2, B2. tauto. }
    { intros v Hv. now apply Vq. }
    { intros e. rewrite B3, Pc, A3, W3, (tox_split g i j kq q _ IV Hq Hqs Hqr), Rmult_assoc. f_equal. f_equal.
      rewrite <- (pmsg_ext g kq q S e (over special e) IV Hq); [unfold pmsg; now rewrite E|rewrite Hqs, Hqr, psep_sym; exact HS|].
      intros v Hv. symmetry. apply over_other. now apply S_in. }
    destruct (pl_cancel _ _ _ _ _ L f2 (m_fac mq) c M1 Gq C1) as (f3 & D1 & D2 & D3 & D4); auto.
    { intros v. rewrite C2, M2. tauto. }
    { intros v Hv. apply M2. now apply Vq. }
    rewrite D1. cbn [bind]. eexists. split; [reflexivity|]. split; cbn [m_snd m_rcv m_fac]; auto.
    + split; [exact D2|]. intros v. now rewrite D3, M2.
    + exists f1. split; [split; assumption|]. intros rem Hn Hrem. destruct (M3 rem Hn Hrem) as (T1 & T2). split; [exact T1|].
      intros e. rewrite D4. unfold pmsg. rewrite E, <- C3. apply T2.
  - cbn [bind]. eexists. split; [reflexivity|]. split; cbn [m_snd m_rcv m_fac]; auto.
    + split; [exact M1|]. intros v. now rewrite M2.
    + exists f1. split; [split; assumption|]. intros rem Hn Hrem. destruct (M3 rem Hn Hrem) as (T1 & T2). split; [exact T1|].
      intros e. unfold pmsg. rewrite E, Rmult_1_r. apply T2.
Qed.
Lemma message_made m : make_message ops ci (cl_id cj) = Ok m -> msg_ok m.
Proof.
  intros H. pose proof H as H0. unfold make_message, dget_r in H0.
  pose proof (pi_struct _ IV) as ST. rewrite (st_sep _ _ ST i j ci cj Hi Hj), HS in H0. cbn [bind] in H0.
  apply bind_ok in H0. destruct H0 as (f1 & H1 & H0). apply bind_ok in H0. destruct H0 as (f2 & H2 & _).
  destruct (message_after f1 f2 H1 H2) as (m' & E & MO). rewrite H in E. injection E as <-. exact MO.
Qed.
End Message.

(** ** The invariant *)
Lemma pinv_init factors reduced g : made ops o factors ev special reduced final g -> pinv g.
Proof.
  intros M. split.
  - apply (mk_struct _ _ _ _ _ _ _ _ M).
  - rewrite <- (made_facs _ _ _ _ _ _ _ _ M). now rewrite map_length.
  - intros i c Hc. destruct (made_cluster _ _ _ _ _ _ _ _ i c M Hc) as (f & H1 & H2 & _ & H4).
    exists f. split; [exact H1|]. split; [exact H4|]. split.
    + rewrite H2. split; [now apply (final_good i)|tauto].
    + intros e. rewrite H2. rewrite Rprod_ones; [ring|]. intros p Hp. apply In_nth_error in Hp. destruct Hp as (k & Hk).
      unfold tox, pmsg. rewrite (proj1 (mk_path _ _ _ _ _ _ _ _ M k p Hk)). destruct (Nat.eq_dec _ _); reflexivity.
  - intros k p m Hp Hm. rewrite (proj1 (mk_path _ _ _ _ _ _ _ _ M k p Hp)) in Hm. discriminate.
  - intros k p ci cj Hp Hi Hj. rewrite (mk_recv _ _ _ _ _ _ _ _ M _ cj Hj).
    rewrite (proj1 (mk_path _ _ _ _ _ _ _ _ M k p Hp)). reflexivity.
  - intros i c Hc. destruct (made_cluster _ _ _ _ _ _ _ _ i c M Hc) as (f & H1 & H2 & _). left. now rewrite H2.
Qed.

Lemma pends g k p : pinv g -> nth_error (g_paths g) k = Some p ->
  exists S ci cj fi fj q kq, sepf (p_snd p) (p_rcv p) = Some S /\ p_snd p <> p_rcv p /\ S <> [] /\
    nth_error (g_cl g) (p_snd p) = Some ci /\ nth_error (g_cl g) (p_rcv p) = Some cj /\
    nth_error final (p_snd p) = Some fi /\ nth_error final (p_rcv p) = Some fj /\
    nth_error (g_paths g) kq = Some q /\ p_snd q = p_rcv p /\ p_rcv q = p_snd p.
Proof.
  intros IV Hp. pose proof (pi_struct _ IV) as ST. destruct (st_path _ _ ST k p Hp) as (S & HS).
  destruct (st_edge _ _ ST _ _ S HS) as (H1 & H2 & H3 & H4 & H5 & _).
  destruct (st_edge _ _ ST _ _ S H5) as (_ & _ & _ & _ & _ & kq & q & Q1 & Q2 & Q3).
  destruct (nth_error (g_cl g) (p_snd p)) as [ci|] eqn:Ei; [|apply nth_error_None in Ei; lia].
  destruct (nth_error (g_cl g) (p_rcv p)) as [cj|] eqn:Ej; [|apply nth_error_None in Ej; lia].
  destruct (pi_cl _ IV _ ci Ei) as (fi & Hfi & _). destruct (pi_cl _ IV _ cj Ej) as (fj & Hfj & _).
  exists S, ci, cj, fi, fj, q, kq. repeat split; auto.
Qed.
Lemma pnext g k p : pinv g -> fresh ops g -> nth_error (g_paths g) k = Some p ->
  exists S ci cj fi q kq, sepf (p_snd p) (p_rcv p) = Some S /\
    nth_error (g_cl g) (p_snd p) = Some ci /\ nth_error (g_cl g) (p_rcv p) = Some cj /\ nth_error final (p_snd p) = Some fi /\
    nth_error (g_paths g) kq = Some q /\ p_snd q = p_rcv p /\ p_rcv q = p_snd p /\
    msg_ok ci cj S fi q (p_next p).
Proof.
  intros IV Fr Hp. destruct (pends g k p IV Hp) as (S & ci & cj & fi & fj & q & kq & HS & Hne & HSn & Hi & Hj & Hfi & Hfj & Hq & Q1 & Q2).
  exists S, ci, cj, fi, q, kq. repeat (split; [assumption|]).
  apply (message_made g _ _ ci cj S fi q kq IV Hi Hj HS Hfi Hq Q1 Q2). eapply Fr; eauto.
Qed.

Lemma preceive g k p : pinv g -> fresh ops g -> nth_error (g_paths g) k = Some p ->
  exists cj cj', nth_error (g_cl g) (p_rcv p) = Some cj /\ receive_message ops cj (p_next p) = Ok cj' /\
    good (cl_fac cj') /\ (forall v, In v (f_vars ops (cl_fac cj')) <-> In v (f_vars ops (cl_fac cj))) /\
    (sound (cl_fac cj') -> ready (cl_fac cj')) /\
    (forall e, pt (cl_fac cj') e = pt (cl_fac cj) e * pt (m_fac (p_next p)) e / pmsg p e)%R.
Proof.
  intros IV Fr Hp. destruct (pnext g k p IV Fr Hp) as (S & ci & cj & fi & q & kq & HS & Hi & Hj & Hfi & Hq & Q1 & Q2 & [M1 M2 (Mg & Mv) _]).
  destruct (pi_cl _ IV _ cj Hj) as (fj & Hfj & Hsp & (Gj & Vj) & Pj).
  assert (SI : forall v, In v S -> In v (f_vars ops fj)).
  { intros v Hv. destruct (psep_In _ _ S v HS Hv) as (_ & H & _). now apply H. }
  destruct (pr_mul _ _ _ PL (cl_fac cj) (m_fac (p_next p)) Gj Mg) as (f1 & F1 & F2 & F3 & F4).
  assert (V1 : forall v, In v (f_vars ops f1) <-> In v (f_vars ops fj)).
  { intros v. rewrite F3, Mv, Vj. specialize (SI v). tauto. }
  exists cj. unfold receive_message. rewrite (proj2 (eqb_true _ _) M2). cbn [py_assert bind]. rewrite F1. cbn [bind].
  rewrite M1, (pi_recv _ IV k p ci cj Hp Hi Hj).
  destruct (p_prev p) as [m0|] eqn:E; cbn [option_map].
  - destruct (pi_prev _ IV k p m0 Hp E) as (S' & HS' & G0 & V0). rewrite HS in HS'. inversion HS'; subst S'.
    destruct (with_messages g (p_rcv p) fj (others (p_rcv p) (p_snd p)) IV Hfj) as (w & W1 & W2 & W3).
    { intros x Hx. unfold others in Hx. apply andb_true_iff in Hx. now apply Nat.eqb_eq. }
    destruct (pr_mul _ _ _ PL w (m_fac (p_next p)) W1 Mg) as (c & C1 & C2 & C3 & C4).
    assert (EQ : forall e, (pt f1 e = pt c e * pt (m_fac m0) e)%R).
    { intros e. rewrite F4, C4, W3, Pj, (tox_split g (p_rcv p) (p_snd p) k p e IV Hp eq_refl eq_refl).
      unfold pmsg. rewrite E. ring. }
    destruct (pl_cancel _ _ _ _ _ L f1 (m_fac m0) c F2 G0 C2) as (f2 & D1 & D2 & D3 & D4); auto.
    { intros v. rewrite C3, V1, W2, Mv. specialize (SI v). tauto. }
    { intros v Hv. apply V1, SI, V0. exact Hv. }
    rewrite D1. cbn [bind]. eexists. split; [exact Hj|]. split; [reflexivity|]. cbn [cl_fac]. split; [exact D2|].
    split; [intros v; now rewrite D3, V1, Vj|]. split; [exact (pl_cancel_ready _ _ _ _ _ L f1 (m_fac m0) f2 F2 G0 D1)|]. intros e. rewrite D4, <- F4, EQ. unfold pmsg. rewrite E.
    pose proof (pl_pos _ _ _ _ _ L (m_fac m0) e G0). field. lra.
  - cbn [bind]. eexists. split; [exact Hj|]. split; [reflexivity|]. cbn [cl_fac]. split; [exact F2|].
    split; [intros v; now rewrite V1, Vj|]. split; [exact (pl_mul_ready _ _ _ _ _ L (cl_fac cj) (m_fac (p_next p)) f1 Gj Mg F1)|]. intros e. rewrite F4. unfold pmsg. rewrite E. field.
Qed.

Lemma pinv_sent g k g' p cr cr' : pinv g -> fresh ops g -> sent ops g k g' p cr cr' -> pinv g'.
Proof.
  intros IV Fr P. pose proof (se_path _ _ _ _ _ _ _ P) as Hp.
  destruct (pnext g k p IV Fr Hp) as (S & ci & cj & fi & q & kq & HS & Hi & Hj & Hfi & Hq & Q1 & Q2 & MO).
  destruct (preceive g k p IV Fr Hp) as (cj2 & cj' & Hj2 & Hrc & Gj' & Vj' & Rj' & Pj').
  rewrite Hj in Hj2. inversion Hj2; subst cj2; clear Hj2.
  pose proof (se_cr _ _ _ _ _ _ _ P) as Hcr. rewrite Hj in Hcr. inversion Hcr; subst cr; clear Hcr.
  pose proof (se_recv _ _ _ _ _ _ _ P) as Hrc2. rewrite Hrc in Hrc2. inversion Hrc2; subst cr'; clear Hrc2.
  pose proof (pi_struct _ IV) as ST.
  assert (ST' : struct_ok sepf g') by (eapply struct_sent; eauto).
  destruct (pi_cl _ IV _ cj Hj) as (fj & Hfj & Hspj & (Gj & Vj) & Pj).
  destruct (receive_fields ops _ _ _ Hrc) as (RF1 & RF2 & RF3 & RF4 & RF5 & RF6 & _).
  assert (Hpaths : forall i e, exists A, Rprod (map (fun p => tox i p e) (g_paths g)) = (A * tox i p e)%R /\
     Rprod (map (fun p => tox i p e) (g_paths g')) = (A * (if Nat.eq_dec (p_rcv p) i then pt (m_fac (p_next p)) e else 1))%R).
  { intros i e. assert (Hk : nth_error (map (fun p => tox i p e) (g_paths g)) k = Some (tox i p e)).
    { now rewrite nth_error_map, Hp. }
    destruct (Rprod_split _ k _ Hk) as (A & A1 & A2). exists A. split; [exact A1|]. apply A2.
    - rewrite !map_length. apply (se_plen _ _ _ _ _ _ _ P).
    - destruct (sent_paths_back _ _ _ _ _ _ _ k p P Hp) as (p' & Hp' & _).
      destruct (se_paths _ _ _ _ _ _ _ P k p' Hp') as (p0 & Hp0 & E1 & E2 & E3). rewrite Hp in Hp0. inversion Hp0; subst p0.
      rewrite nth_error_map, Hp'. cbn. f_equal. unfold tox, pmsg. rewrite E2, E3. destruct (Nat.eq_dec k k); [reflexivity|congruence].
    - intros j Hjk. rewrite !nth_error_map. destruct (nth_error (g_paths g') j) as [p'|] eqn:Ep'.
      + destruct (se_paths _ _ _ _ _ _ _ P j p' Ep') as (p0 & Hp0 & E1 & E2 & E3). rewrite Hp0. cbn. f_equal.
        unfold tox, pmsg. rewrite E2, E3. destruct (Nat.eq_dec j k); [congruence|reflexivity].
      + destruct (nth_error (g_paths g) j) as [p0|] eqn:Ep0; [|reflexivity]. exfalso.
        destruct (sent_paths_back _ _ _ _ _ _ _ j p0 P Ep0) as (p' & Hp' & _). congruence. }
  split.
  - exact ST'.
  - rewrite (se_len _ _ _ _ _ _ _ P). apply (pi_len _ IV).
  - intros i c Hc. rewrite (se_cl _ _ _ _ _ _ _ P) in Hc. destruct (Nat.eq_dec i (p_rcv p)) as [->|N].
    + inversion Hc; subst c. exists fj. split; [exact Hfj|]. split; [now rewrite RF4|]. split.
      * split; [exact Gj'|]. intros v. rewrite Vj'. apply Vj.
      * intros e. destruct (Hpaths (p_rcv p) e) as (A & A1 & A2). rewrite A2, Pj', Pj, A1.
        unfold tox. destruct (Nat.eq_dec (p_rcv p) (p_rcv p)) as [_|C]; [|congruence].
        pose proof (pmsg_pos g k p e IV Hp). field. lra.
    + destruct (pi_cl _ IV i c Hc) as (f & H1 & H2 & H3 & H4). exists f. repeat (split; [assumption|]).
      intros e. destruct (Hpaths i e) as (A & A1 & A2). rewrite H4, A1, A2. unfold tox.
      destruct (Nat.eq_dec (p_rcv p) i); [congruence|reflexivity].
  - intros j p' m Hp' Hm. destruct (se_paths _ _ _ _ _ _ _ P j p' Hp') as (p0 & Hp0 & E1 & E2 & E3).
    rewrite E1, E2. destruct (Nat.eq_dec j k) as [->|N].
    + rewrite Hp in Hp0. inversion Hp0; subst p0. rewrite E3 in Hm. inversion Hm; subst m.
      exists S. split; [exact HS|]. apply (ms_fac _ _ _ _ _ _ MO).
    + rewrite E3 in Hm. apply (pi_prev _ IV j p0 m Hp0 Hm).
  - intros j p' ca cb Hp' Ha Hb. destruct (se_paths _ _ _ _ _ _ _ P j p' Hp') as (p0 & Hp0 & E1 & E2 & E3).
    rewrite E1 in Ha. rewrite E2 in Hb.
    destruct (sent_cl _ _ _ _ _ _ _ _ ca P Ha) as (ca0 & Ha0 & Ia & _).
    destruct (sent_cl _ _ _ _ _ _ _ _ cb P Hb) as (cb0 & Hb0 & Ib & _ & _ & _ & Hne & Heq).
    rewrite E3, Ia. destruct (Nat.eq_dec (p_rcv p0) (p_rcv p)) as [Er|Er].
    + destruct (Heq Er) as [-> ->]. rewrite RF6, (ms_snd _ _ _ _ _ _ MO).
      destruct (Nat.eq_dec j k) as [->|N].
      * rewrite Hp in Hp0. inversion Hp0; subst p0. rewrite Hi in Ha0. inversion Ha0; subst ca0.
        now rewrite dget_dset_eq.
      * rewrite dget_dset_ne.
        -- apply (pi_recv _ IV j p0 ca0 cj Hp0 Ha0). now rewrite Er.
        -- intros C. apply N. apply (st_pair _ _ ST j k p0 p Hp0 Hp); [|exact Er].
           apply (ids_inj (g_cl g) _ _ ca0 ci (st_ids _ _ ST) Ha0 Hi). auto.
    + rewrite (Hne Er). destruct (Nat.eq_dec j k) as [->|N].
      * rewrite Hp in Hp0. inversion Hp0; subst p0. congruence.
      * apply (pi_recv _ IV j p0 ca0 cb0 Hp0 Ha0 Hb0).
  - intros i c Hc. rewrite (se_cl _ _ _ _ _ _ _ P) in Hc. destruct (Nat.eq_dec i (p_rcv p)) as [->|N].
    + inversion Hc; subst c. right. exact Rj'.
    + apply (pi_ready _ IV i c Hc).
Qed.

Record plive (g : cgraph F R) : Prop := { pv_inv : pinv g; pv_static : static_ok ops sepf g }.
Lemma plive_init factors reduced g : made ops o factors ev special reduced final g -> plive g.
Proof. intros M. split; [eapply pinv_init; eauto|eapply made_static; eauto]. Qed.
Lemma plive_pass g k g' : plive g -> pass_path ops g k = Ok g' -> plive g'.
Proof.
  intros [IV SA] H. destruct (pass_path_passed ops g k g' (struct_out _ _ (sa_struct _ _ _ SA)) H) as (p & cr & cr' & P).
  split; [|eapply static_passed; eauto]. eapply pinv_sent; [exact IV|apply (sa_fresh _ _ _ SA)|]. apply passed_sent. exact P.
Qed.
Lemma plive_passes ks : forall g g', plive g -> foldM (pass_path ops) ks g = Ok g' -> plive g'.
Proof.
  induction ks as [|k ks IH]; intros g g' LV H; cbn [foldM] in H; [inversion H; subst; exact LV|].
  apply bind_ok in H. destruct H as (g1 & H1 & H). eapply IH; [|exact H]. eapply plive_pass; eauto.
Qed.

(** ** The joint *)
Lemma tox_swap g e : pinv g ->
  Rprod (map (fun i => Rprod (map (fun p => tox i p e) (g_paths g))) (seq 0 (length final))) =
  Rprod (map (fun p => pmsg p e) (g_paths g)).
Proof.
  intros IV. rewrite Rprod_swap. apply Rprod_ext. intros p Hp. apply In_nth_error in Hp. destruct Hp as (k & Hk).
  destruct (pends g k p IV Hk) as (S & ci & cj & fi & fj & q & kq & _ & _ & _ & _ & _ & _ & Hfj & _).
  unfold tox. apply (Rprod_indicator (length final) (p_rcv p) (pmsg p e)). apply nth_error_Some. congruence.
Qed.
Lemma pjoint g e : pinv g ->
  prod_at pt (map cl_fac (g_cl g)) e = (prod_at pt final e * Rprod (map (fun p => pmsg p e) (g_paths g)))%R.
Proof.
  intros IV. rewrite <- (tox_swap g e IV). rewrite <- !(prod_at_seq pt). rewrite map_length, (pi_len _ IV).
  rewrite <- Rprod_mult. apply Rprod_ext. intros i Hi. apply in_seq in Hi. unfold pt_at. rewrite nth_error_map.
  destruct (nth_error (g_cl g) i) as [c|] eqn:E.
  - destruct (pi_cl _ IV i c E) as (f & H1 & _ & _ & H4). cbn [option_map]. now rewrite H1.
  - apply nth_error_None in E. rewrite (pi_len _ IV) in E. lia.
Qed.
End Pos.
