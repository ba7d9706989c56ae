(** The statements for whole chains and trees. *)
From Verif Require Export NlgTreeEx.
Local Open Scope string_scope.
Local Open Scope list_scope.
Local Open Scope R_scope.

Lemma visit_total o p t : oracle_ok o -> nready (cl_fac p) -> tree p t -> NoDup (cl_id p :: fids t) -> (forall i, In i (fids t) -> dget (cl_recv p) i = None) -> cvars p <> [] ->
  exists p' t', visit (nfac_ops o) p t = Ok (p', t') /\ cl_id p' = cl_id p /\ fids t' = fids t /\ (forall q, In q (p' :: fnodes t') -> nready (cl_fac q)) /\
    (forall v, In v (cvars p') <-> In v (cvars p)) /\ (forall i, ~ In i (fids t) -> dget (cl_recv p') i = dget (cl_recv p) i).
Proof.
  intros Ho Rp T ND Dp NE. destruct (visit_ok o t Ho p Rp T ND Dp NE) as (p1 & t1 & B & Ev & SC & Rp1 & _ & _ & _ & Fr & Id & Rn & _). exists p1, t1. split; [exact Ev|]. split; [apply SC|]. split; [exact Id|].
  split; [intros q [<-|Hq]; [exact Rp1|now apply Rn]|]. split; [intros v; now apply same_vars|exact Fr].
Qed.
Lemma ready_marginal o x xs : oracle_ok o -> nready x -> xs <> [] -> NoDup xs -> incl xs (nfree x) ->
  exists x1 r, nf_reduce x [] [] = Ok x1 /\ nf_marg o x1 xs = Ok (FG r) /\ ga_vars r = xs /\ solid r /\ (forall e, 0 < gval r e) /\
    forall rem, NoDup rem -> (forall v, In v rem <-> In v (nfree x) /\ ~ In v xs) -> forall e, iint rem (npot x) e (gval r e).
Proof.
  intros Ho R Nx Dx Ix. destruct (ready_message o x xs Ho R Nx Dx Ix) as (x1 & r & J & E1 & E2 & Vr & Sr & Pr & SJ & PJ & VJ & GJ & EJ). destruct (solid_proper J SJ PJ) as (GJt & VaJ).
  exists x1, r. do 5 (split; [assumption|]). intros rem N H e. apply (iint_ext rem (gval J)); [exact GJ|].
  refine (proj2 (proj2 (down_marg o J xs r Ho (ggood_weak true J GJt) VaJ Nx Dx _ EJ) rem N _) e); [intros v Hv; now apply VJ, Ix|intros v; now rewrite H, VJ].
Qed.
Lemma fids_line ds : fids (line ds) = map cl_id ds.
Proof. induction ds as [|d ds IH]; [reflexivity|]. cbn [line fids map]. now rewrite IH, app_nil_r. Qed.
Lemma visit_line {V} (ops : fops nfac V) : forall ds p p' t', visit (ops : fops nfac V) p ((fix ln (l : list (cluster nfac V)) := match l with [] => FNil | d :: l => FCons d (ln l) FNil end) ds) = Ok (p', t') ->
  exists ds', t' = (fix ln (l : list (cluster nfac V)) := match l with [] => FNil | d :: l => FCons d (ln l) FNil end) ds'.
Proof.
  induction ds as [|d ds IH]; intros p p' t' H; cbn [visit] in H.
  - injection H as _ <-. now exists [].
  - apply bind_ok in H. destruct H as (d1 & _ & H). apply bind_ok in H. destruct H as ((d2 & k2) & H1 & H). apply bind_ok in H. destruct H as (p2 & _ & H). cbn [visit bind fst snd] in H. injection H as _ <-.
    destruct (IH _ _ _ H1) as (ds' & ->). now exists (d2 :: ds').
Qed.
Lemma forward_exact o p ds : oracle_ok o -> nready (cl_fac p) -> tree p (line ds) -> NoDup (cl_id p :: map cl_id ds) -> (forall i, In i (map cl_id ds) -> dget (cl_recv p) i = None) -> cvars p <> [] ->
  exists q, forward (nfac_ops o) p ds = Ok q /\ nready (cl_fac q) /\ cl_id q = cl_id (last ds p) /\ (forall v, In v (cvars q) <-> In v (cvars (last ds p))) /\
    forall rem, NoDup rem -> (forall v, In v rem <-> In v (tvars p (line ds)) /\ ~ In v (cvars q)) -> forall e, iint rem (tpot p (line ds)) e (own q e).
Proof.
  intros Ho Rp T ND Dp NE. destruct (forward_ok o ds Ho p Rp T ND Dp NE) as (q & Eq & Rq & Sq & _ & (_ & D)). exists q. split; [exact Eq|]. split; [exact Rq|]. split; [apply Sq|].
  split; [intros v; now apply same_vars|]. intros rem N H. now apply D.
Qed.
Lemma smooth_exact o p ds : oracle_ok o -> nready (cl_fac p) -> tree p (line ds) -> clear p (line ds) -> NoDup (cl_id p :: map cl_id ds) -> (forall i, In i (map cl_id ds) -> dget (cl_recv p) i = None) -> cvars p <> [] ->
  exists p' ds', visit (nfac_ops o) p (line ds) = Ok (p', line ds') /\ map cl_id ds' = map cl_id ds /\
    forall q xs, In q (p' :: ds') -> xs <> [] -> NoDup xs -> incl xs (cvars q) ->
      exists x1 r k, nf_reduce (cl_fac q) [] [] = Ok x1 /\ nf_marg o x1 xs = Ok (FG r) /\ ga_vars r = xs /\ 0 < k /\
        forall rem, NoDup rem -> (forall v, In v rem <-> In v (tvars p (line ds)) /\ ~ In v xs) -> forall e, iint rem (tpot p (line ds)) e (k * gval r e).
Proof.
  intros Ho Rp T C ND Dp NE. rewrite <- fids_line in ND, Dp. destruct (visit_ok o (line ds) Ho p Rp T ND Dp NE) as (p1 & t1 & _ & Ev & _ & _ & _ & _ & _ & _ & Id & _).
  destruct (visit_line (nfac_ops o) ds p p1 t1 Ev) as (ds' & E). assert (E' : t1 = line ds') by exact E. subst t1. exists p1, ds'. split; [exact Ev|]. split; [now rewrite <- !fids_line|].
  intros q xs Hq Nx Dx Ix. rewrite <- (lasts_line ds') in Hq.
  destruct (visit_marginal o p (line ds) p1 (line ds') q xs Ho Rp T C ND Dp NE Ev Hq Nx Dx Ix) as (x1 & r & k & E1 & E2 & Vr & _ & _ & Hk & _ & H). exists x1, r, k. now repeat split.
Qed.

Lemma ex_visited : exists o f1 f2 f3 p' t' x1 r, oracle_ok o /\ is_link "x0" "x1" [] f1 /\ is_link "x1" "z" [("z", 3)] f2 /\ is_link "x1" "x2" [] f3 /\
  nready (cl_fac ex_root) /\ tree ex_root (ex_kids f1 f2 f3) /\ clear ex_root (ex_kids f1 f2 f3) /\ NoDup (cl_id ex_root :: fids (ex_kids f1 f2 f3)) /\
  visit (nfac_ops o) ex_root (ex_kids f1 f2 f3) = Ok (p', t') /\ length (lasts t') = 2%nat /\ nf_reduce (cl_fac p') [] [] = Ok x1 /\ nf_marg o x1 ["x0"] = Ok (FG r).
Proof.
  destruct ex_tree as (o & f1 & f2 & f3 & Ho & M1 & M2 & M3 & Rp & T & C & ND & Dp & NE). destruct (visit_ok o _ Ho _ Rp T ND Dp NE) as (p1 & t1 & _ & Ev & SC & Rp1 & _).
  destruct (ready_message o _ ["x0"] Ho Rp1) as (x1 & r & J & E1 & E2 & _); [discriminate|apply nd1|intros v [<-|[]]; apply (same_vars _ _ "x0" SC); now left|].
  exists o, f1, f2, f3, p1, t1, x1, r. do 9 (split; [assumption|]). split; [|now split].
  unfold ex_kids in Ev. cbn [visit] in Ev. apply bind_ok in Ev. destruct Ev as (a1 & _ & Ev). apply bind_ok in Ev. destruct Ev as ((a2 & k2) & Hk & Ev). apply bind_ok in Ev. destruct Ev as (a3 & _ & Ev).
  cbn [bind fst snd] in Ev. injection Ev as _ <-. apply bind_ok in Hk. destruct Hk as (b1 & _ & Hk). cbn [bind fst snd] in Hk. apply bind_ok in Hk. destruct Hk as (b2 & _ & Hk).
  apply bind_ok in Hk. destruct Hk as ((b3 & k3) & Hk & Hk'). cbn [fst snd] in Hk'. injection Hk' as _ <-. apply bind_ok in Hk. destruct Hk as (b4 & _ & Hk). cbn [bind fst snd] in Hk. apply bind_ok in Hk. destruct Hk as (b5 & _ & Hk).
  cbn [bind fst snd] in Hk. injection Hk as _ <-. reflexivity.
Qed.
Lemma ex_chain : exists o f1 f2 p ds, oracle_ok o /\ is_link "x0" "x1" [] f1 /\ is_link "x1" "z" [("z", 3)] f2 /\
  map cl_fac (p :: ds) = [FG (stdg ["x0"] [0] 0); FN f1; FN f2] /\ nready (cl_fac p) /\ tree p (line ds) /\ clear p (line ds) /\ NoDup (cl_id p :: map cl_id ds) /\
  (forall i, In i (map cl_id ds) -> dget (cl_recv p) i = None) /\ cvars p <> [].
Proof.
  destruct ex_tree as (o & f1 & f2 & f3 & Ho & M1 & M2 & M3 & Rp & T & C & ND & Dp & NE).
  exists o, f1, f2, ex_root, [node (FN f1) "c1" [("c0", ["x0"]); ("c2", ["x1"]); ("c3", ["x1"])]; node (FN f2) "c2" [("c1", ["x1"])]]. split; [exact Ho|]. split; [exact M1|]. split; [exact M2|]. split; [reflexivity|]. split; [exact Rp|].
  cbn [line]. cbn [tree ex_kids clear fvars] in T, C |- *. split; [|split; [|split; [|split; [reflexivity|discriminate]]]].
  - destruct T as ((S & E & HS) & _ & R1 & (T1 & _ & R2 & _) & _). split; [exists S; split; [exact E|]; intros v H1 H2; apply (HS v H1); rewrite !in_app_iff in *; tauto|]. split; [intros v _ []|]. split; [exact R1|]. split; [|exact I].
    split; [exact T1|]. split; [intros v _ []|]. now split.
  - destruct C as (C1 & (C2 & _) & _). split; [exact C1|]. split; [|exact I]. split; [exact C2|now split].
  - apply (proj1 (nodupb_iff _)). reflexivity.
Qed.
Lemma ex_untold : exists o f1 f3, oracle_ok o /\ is_link "x0" "x1" [] f1 /\ is_link "x1" "x2" [] f3 /\ untold (FN f3) /\ untoldF FNil /\
  tree (node (FN f1) "c1" [("c3", ["x1"])]) (FCons (node (FN f3) "c3" [("c1", ["x1"])]) FNil FNil).
Proof.
  destruct id_oracle_ok as (o & Ho).
  destruct (link_made "x0" "x1" []) as (f1 & M1 & W1 & OK1 & A1 & A2 & A3 & A4 & A5 & A6); [discriminate|constructor|].
  destruct (link_made "x1" "x2" []) as (f3 & M3 & W3 & OK3 & C1 & C2 & C3 & C4 & C5 & C6); [discriminate|constructor|].
  exists o, f1, f3. do 3 (split; [assumption|]). cbn [untold untoldF tree]. rewrite C4, C6. split; [now split|]. split; [exact I|]. split; [exists ["x1"]; split|].
  - split; cbn; auto; [discriminate|apply nd1| |].
    + rewrite A2, A6. split; [apply incl_refl|intros v _ []].
    + apply (link_wait "x1" "x2" []); auto; discriminate.
  - cbn [node cl_fac nfree fvars]. unfold free, nl_vars. rewrite A1, A2, A6, C1, C2, C6. cbn. intros v H [E|[E|[]]]; subst v; [now left|destruct H as [H|[H|[]]]; discriminate H].
  - split; [intros v _ []|]. now split.
Qed.
Lemma ex_marginal : (exists o, oracle_ok o) /\ nready (cl_fac ex_root) /\ NoDup ["x0"] /\ incl ["x0"] (cvars ex_root).
Proof. destruct ex_tree as (o & f1 & f2 & f3 & Ho & M1 & M2 & M3 & Rp & _). split; [now exists o|]. split; [exact Rp|]. split; [apply nd1|apply incl_refl]. Qed.
