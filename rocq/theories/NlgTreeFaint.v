(** A tree whose root leaves out a message: u has a prior; y1 and y2 depend on u; z depends faintly
    on y1 and is observed. *)
From Verif Require Export NlgTreeEx.
Local Open Scope string_scope.
Local Open Scope list_scope.
Local Open Scope R_scope.

Definition bothA (y v : string) : R := 1.
Definition faintA (y v : string) : R := if string_dec v "y1" then 1 / 100000 else 0.
Definition byA (A : string -> string -> R) (cal : list string) (X : mat) (names : list string) : res mat :=
  Ok (Mat (length cal) (nc X) (fun i k => rsum (length names) (fun l => A (nth i cal "") (nth l names "") * ent X l k) + 0)).
Lemma byA_affine A cing cal : affine_by_name (byA A cal) cing cal A (fun _ => 0).
Proof. intros X names _ _. eexists. split; [reflexivity|]. split; [reflexivity|]. split; [reflexivity|]. reflexivity. Qed.
Lemma by_made A cing cal cond ev : NoDup (cing ++ cal) -> cal <> [] -> (forall c, cond = Some c -> solid c) -> NoDup (dkeys ev) ->
  exists f, mk_nlg cing cal (byA A cal) (meye (length cal)) (Fin 0) None None cond ev = Ok f /\ nl_wf f /\ nl_ok f A (fun _ => 0) /\
    nl_cing f = cing /\ nl_cal f = cal /\ nl_w f = Fin 0 /\ nl_upd f = None /\ nl_cond f = cond /\ nl_ev f = ev /\ nl_Q f = meye (length cal).
Proof.
  intros Hd Hc Hs Hk.
  destruct (nl_init_spec cing cal (byA A cal) (meye (length cal)) (Fin 0) None cond ev Hd eq_refl eq_refl) as (f & E & W & K1 & K2 & K3 & K4 & K5 & K6 & K7 & K8 & _); [discriminate|exact Hs|].
  exists f. split; [exact E|]. split; [exact W|]. split; [|now repeat split]. unfold nl_ok, nl_vars, upd_ok. rewrite K1, K2, K3, K4, K6, K8.
  split; [exact Hd|]. split; [exact Hc|]. split; [reflexivity|]. split; [reflexivity|]. split; [apply eye_posdef|]. split; [apply byA_affine|]. now split.
Qed.

Definition faint_root (f0 : nlg) : ncl := node (FN f0) "c0" [("c1", ["y1"; "y2"])].
Definition faint_kid (f1 : nlg) : ncl := node (FN f1) "c1" [("c0", ["y1"; "y2"])].
Lemma faint_tree : exists o f0 f1, oracle_ok o /\
  mk_nlg ["u"] ["y1"; "y2"] (byA bothA ["y1"; "y2"]) (meye 2) (Fin 0) None None (Some (stdg ["u"] [0] 0)) [] = Ok f0 /\
  mk_nlg ["y1"; "y2"] ["z"] (byA faintA ["z"]) (meye 1) (Fin 0) None None None [("z", 1)] = Ok f1 /\
  exists p t, p = faint_root f0 /\ t = FCons (faint_kid f1) FNil FNil /\
    nready (cl_fac p) /\ tree p t /\ NoDup (cl_id p :: fids t) /\ (forall i, In i (fids t) -> dget (cl_recv p) i = None) /\ cvars p <> [] /\
    exists p' t', visit (nfac_ops o) p t = Ok (p', t') /\ (forall v, In v (tvars p t) <-> In v (cvars p')) /\ (forall e, own p' e = own p e) /\
      exists e1 e2, tpot p t e1 = own p e1 * fpot t e1 /\ fpot t e1 <> fpot t e2.
Proof.
  destruct id_oracle_ok as (o & Ho).
  assert (Su : solid (stdg ["u"] [0] 0)) by apply stdg_solid, nd1.
  destruct (by_made bothA ["u"] ["y1"; "y2"] (Some (stdg ["u"] [0] 0)) []) as (f0 & M0 & W0 & OK0 & A1 & A2 & A3 & A4 & A5 & A6 & A7); [apply (proj1 (nodupb_iff _)); reflexivity|discriminate|now intros c [= <-]|constructor|].
  destruct (by_made faintA ["y1"; "y2"] ["z"] None [("z", 1)]) as (f1 & M1 & W1 & OK1 & B1 & B2 & B3 & B4 & B5 & B6 & B7); [apply (proj1 (nodupb_iff _)); reflexivity|discriminate|discriminate|apply nd1|].
  exists o, f0, f1. split; [exact Ho|]. split; [exact M0|]. split; [exact M1|]. set (p := faint_root f0). set (d := faint_kid f1). exists p, (FCons d FNil FNil). split; [reflexivity|]. split; [reflexivity|].
  assert (F0 : free f0 = ["u"; "y1"; "y2"]) by (unfold free, nl_vars; rewrite A1, A2, A6; reflexivity).
  assert (F1 : free f1 = ["y1"; "y2"]) by (unfold free, nl_vars; rewrite B1, B2, B6; reflexivity).
  assert (Rp : nready (cl_fac p)).
  { cbn [p faint_root node cl_fac nready]. exists bothA, (fun _ => 0), (stdg ["u"] [0] 0), 0. do 4 (split; [assumption|]). rewrite A4. split; [|split; [|exact I]].
    - split; [exact Su|]. rewrite A1, A6. split; [apply incl_refl|]. split; [intros v Hv; now left|]. intros C. exact (C "u" (or_introl eq_refl)).
    - intros e. unfold gval. rewrite stdg_lp by apply nd1. apply exp_pos. }
  assert (Wd : nwait (cl_fac d) ["y1"; "y2"]).
  { cbn [d faint_kid node cl_fac nwait]. unfold nl_wait. rewrite B1, B4, B6. split; [now exists faintA, (fun _ => 0), 0|]. split; [exact B5|]. split; [exact I|]. split; [discriminate|].
    split; [apply nd2; discriminate|]. split; [apply incl_refl|]. split; [|intros v Hv; now left]. intros v [<-|[<-|[]]] [H|[]]; discriminate H. }
  assert (E : edge p d ["y1"; "y2"]).
  { split; try reflexivity; [discriminate|apply nd2; discriminate| |exact Wd]. cbn [p faint_root node cl_fac takes]. rewrite A2, A6. split; [apply incl_refl|intros v _ []]. }
  split; [exact Rp|]. split.
  { cbn [tree]. repeat split; auto; [exists ["y1"; "y2"]; split; [exact E|]|intros v _ []]. cbn [fvars p d faint_root faint_kid node cl_fac nfree]. rewrite F1. intros v _ H. now rewrite app_nil_r in H. }
  split; [apply (proj1 (nodupb_iff _)); reflexivity|]. split; [reflexivity|]. split; [cbn; rewrite F0; discriminate|].
  destruct (send_down o p d _ Ho Rp E eq_refl eq_refl) as (a & d1 & Esd & SC1 & Rd1 & Rc1 & Ga & Va & Gd1 & _).
  pose proof (wait_gf o _ _ Ho Wd) as Gd.
  destruct (send_up o p d1 ["y1"; "y2"] a (fun _ => 1) d Ho Rp Rd1 E SC1) as (b & p2 & Esu & SCp & Rp2 & Rcp & Gb & Fb & Vb & Gp2 & Dbd).
  { rewrite Rc1. reflexivity. } { destruct SC1 as (-> & _). reflexivity. } { exact Ga. } { exact Va. }
  { apply (gf_same (cvars d) _ (own d)); [intros v; now rewrite (same_vars d d1 v SC1)|intros e; ring|exact Gd]. } { intros e. rewrite Gd1. ring. }
  assert (Hb : forall e, gval b e = own d e).
  { intros e. destruct Dbd as (_ & Db). destruct (Db [] (NoDup_nil _)) as (_ & J).
    - intros v. split; [intros []|]. intros (H1 & H2). apply H2. apply (same_vars d d1 v SC1) in H1. cbn [d faint_kid node cl_fac nfree] in H1. now rewrite F1 in H1.
    - specialize (J e). cbn [iint] in J. lra. }
  assert (Hd : forall e, own d e = nl_density f1 (over (nl_ev f1) e)) by (intros e; cbn [d faint_kid node cl_fac npot]; unfold nl_pot; rewrite B4, B5; cbn [optval]; ring).
  assert (Hc : forall x, curv (gval b) x = (x "y1" / 100000) * (x "y1" / 100000)).
  { intros x. assert (Q : curv (gval b) x = curv (fun e => nl_density f1 (over (nl_ev f1) e)) x) by (unfold curv; now rewrite !Hb, !Hd).
    rewrite Q, (curv_density f1 _ _ 0 _ x OK1 B3), B2, B7. cbn [length]. rewrite qsum_eye. unfold mean_of. rewrite B1, B2, B6. cbn. unfold faintA. cbn. field. }
  assert (Fl : ga_vac b = true).
  { destruct (ga_vac b) eqn:Eb; [reflexivity|]. exfalso. apply (fresh_ready false b Gb Fb) in Eb. destruct Eb as [Sm|(v & x & Hv & X1 & X2 & X3)].
    - specialize (Sm (fun v => if string_dec v "y2" then 1 else 0)). rewrite Hc in Sm. cbn beta in Sm. destruct (string_dec "y1" "y2") as [C|_]; [discriminate C|].
      assert (0 < 0 / 100000 * (0 / 100000)); [apply Sm|lra].
      + intros v Hv. destruct (string_dec v "y2") as [->|]; [|reflexivity]. exfalso. apply Hv, Vb. cbn. tauto.
      + exists "y2". destruct (string_dec "y2" "y2") as [_|C]; [lra|congruence].
    - rewrite Hc in X3. destruct (string_dec "y1" v) as [<-|N]; [rewrite X1 in X3; lra|rewrite (X2 _ N) in X3; lra]. }
  exists p2, (FCons d1 FNil FNil). cbn [visit]. rewrite Esd. cbn [bind fst]. rewrite Esu. cbn [bind fst snd]. split; [reflexivity|]. split.
  { intros v. rewrite (same_vars p p2 v SCp). unfold tvars. cbn [fvars]. rewrite !app_nil_r, in_app_iff. cbn [p d faint_root faint_kid node cl_fac nfree]. rewrite F0, F1. cbn. tauto. }
  split; [intros e; rewrite Gp2; cbn [p faint_root node cl_fac dropped]; rewrite Fl; ring|].
  exists (fun _ => 0), (fun _ => 100000). split; [reflexivity|]. cbn [fpot]. rewrite !Hd, !(density_explicit f1 _ _ _ 0 OK1 B3), B2, B7. cbn [length]. rewrite !qsum_eye. unfold mean_of. rewrite B1, B2, B6. cbn. unfold faintA. cbn.
  set (k := 0 - _). intros C. rewrite !Rmult_1_r in C. apply exp_inv in C. lra.
Qed.
(** The product of the factors is not what the root holds. *)
Theorem faint_lost : exists o p t p' t', oracle_ok o /\ nready (cl_fac p) /\ tree p t /\ NoDup (cl_id p :: fids t) /\ (forall i, In i (fids t) -> dget (cl_recv p) i = None) /\ cvars p <> [] /\
  visit (nfac_ops o) p t = Ok (p', t') /\
  ~ exists k, 0 < k /\ forall rem, NoDup rem -> (forall v, In v rem <-> In v (tvars p t) /\ ~ In v (cvars p')) -> forall e, iint rem (tpot p t) e (k * own p' e).
Proof.
  destruct faint_tree as (o & f0 & f1 & Ho & _ & _ & p & t & _ & _ & Rp & T & ND & Dp & NE & p' & t' & Ev & V & Hown & e1 & e2 & _ & Ne).
  exists o, p, t, p', t'. do 7 (split; [assumption|]). intros (k & Hk & H).
  assert (HI : forall e, tpot p t e = k * own p' e).
  { intros e. assert (J : iint [] (tpot p t) e (k * own p' e)); [|cbn [iint] in J; lra]. apply H; [constructor|]. intros v. rewrite V. cbn. tauto. }
  destruct (cvars p) as [|v0 l] eqn:Ec; [congruence|]. assert (Gp : gf (cvars p) (own p)) by (apply (ready_gf o _ v0 Ho Rp); rewrite Ec; now left).
  assert (HK : forall e, fpot t e = k). { intros e. specialize (HI e). unfold tpot in HI. rewrite Hown in HI. pose proof (gf_pos _ _ e Gp). apply (Rmult_eq_reg_l (own p e)); lra. }
  apply Ne. now rewrite !HK.
Qed.
