(** A tree: x0 with a prior; x1 depends on x0; z depends on x1 and is observed; x2 depends on x1. *)
From Verif Require Export NlgTree5.
Local Open Scope string_scope.
Local Open Scope list_scope.
Local Open Scope R_scope.

Definition linkT (X : mat) (names : list string) : res mat := Ok (Mat 1 (nc X) (fun _ k => ent X 0 k)).
Lemma linkT_affine x y : affine_by_name linkT [x] [y] (fun _ _ => 1) (fun _ => 0).
Proof.
  intros X names HP _. apply Permutation_sym, Permutation_length_1_inv in HP. subst names. eexists. split; [reflexivity|]. split; [reflexivity|]. split; [reflexivity|]. intros i j _ _. cbn. lra.
Qed.
(** y = x plus standard noise. *)
Definition is_link (x y : string) (ev : dict string R) (f : nlg) : Prop :=
  mk_nlg [x] [y] linkT (meye 1) (Fin 0) None None None ev = Ok f.
Lemma link_made x y ev : x <> y -> NoDup (dkeys ev) -> exists f, is_link x y ev f /\ nl_wf f /\ nl_ok f (fun _ _ => 1) (fun _ => 0) /\
  nl_cing f = [x] /\ nl_cal f = [y] /\ nl_w f = Fin 0 /\ nl_upd f = None /\ nl_cond f = None /\ nl_ev f = ev.
Proof.
  intros Hxy Hk. assert (Hd : NoDup ([x] ++ [y])) by now apply nd2.
  destruct (nl_init_spec [x] [y] linkT (meye 1) (Fin 0) None None ev Hd eq_refl eq_refl) as (f & E & W & K1 & K2 & K3 & K4 & K5 & K6 & K7 & K8 & _); [discriminate|discriminate|].
  exists f. split; [exact E|]. split; [exact W|]. split; [|now repeat split]. unfold nl_ok, nl_vars, upd_ok. rewrite K1, K2, K3, K4, K6, K8.
  split; [exact Hd|]. split; [discriminate|]. split; [reflexivity|]. split; [reflexivity|]. split; [apply eye_posdef|]. split; [apply linkT_affine|]. now split.
Qed.
Lemma link_wait x y ev f : x <> y -> nl_wf f -> nl_ok f (fun _ _ => 1) (fun _ => 0) -> nl_cing f = [x] -> nl_cal f = [y] -> nl_w f = Fin 0 -> nl_upd f = None -> nl_cond f = None -> nl_ev f = ev ->
  ~ In x (dkeys ev) -> nwait (FN f) [x].
Proof.
  intros Hxy W OK K1 K2 K5 K6 K7 K8 Hx. cbn [nwait]. unfold nl_wait. rewrite K1, K6, K8. split; [now exists (fun _ _ => 1), (fun _ => 0), 0|]. split; [exact K7|]. split; [exact I|]. split; [discriminate|].
  split; [repeat constructor; intros []|]. split; [apply incl_refl|]. split; [now intros v [<-|[]]|]. intros v Hv. now left.
Qed.

Definition node (x : nfac) (id : string) (seps : dict string (list string)) : ncl :=
  {| cl_fac := x; cl_id := id; cl_seps := seps; cl_recv := []; cl_out := []; cl_spec := [] |}.
Definition ex_root : ncl := node (FG (stdg ["x0"] [0] 0)) "c0" [("c1", ["x0"])].
Definition ex_kids (f1 f2 f3 : nlg) : nforest :=
  FCons (node (FN f1) "c1" [("c0", ["x0"]); ("c2", ["x1"]); ("c3", ["x1"])])
    (FCons (node (FN f2) "c2" [("c1", ["x1"])]) FNil (FCons (node (FN f3) "c3" [("c1", ["x1"])]) FNil FNil)) FNil.

Lemma nd1 (x : string) : NoDup [x]. Proof. repeat constructor. intros []. Qed.
Lemma ex_tree : exists o f1 f2 f3, oracle_ok o /\ is_link "x0" "x1" [] f1 /\ is_link "x1" "z" [("z", 3)] f2 /\ is_link "x1" "x2" [] f3 /\
  nready (cl_fac ex_root) /\ tree ex_root (ex_kids f1 f2 f3) /\ clear ex_root (ex_kids f1 f2 f3) /\ NoDup (cl_id ex_root :: fids (ex_kids f1 f2 f3)) /\
  (forall i, In i (fids (ex_kids f1 f2 f3)) -> dget (cl_recv ex_root) i = None) /\ cvars ex_root <> [].
Proof.
  destruct id_oracle_ok as (o & Ho).
  destruct (link_made "x0" "x1" []) as (f1 & M1 & W1 & OK1 & A1 & A2 & A3 & A4 & A5 & A6); [discriminate|constructor|].
  destruct (link_made "x1" "z" [("z", 3)]) as (f2 & M2 & W2 & OK2 & B1 & B2 & B3 & B4 & B5 & B6); [discriminate|apply nd1|].
  destruct (link_made "x1" "x2" []) as (f3 & M3 & W3 & OK3 & C1 & C2 & C3 & C4 & C5 & C6); [discriminate|constructor|].
  assert (F1 : free f1 = ["x0"; "x1"]) by (unfold free, nl_vars; rewrite A1, A2, A6; reflexivity).
  assert (F2 : free f2 = ["x1"]) by (unfold free, nl_vars; rewrite B1, B2, B6; reflexivity).
  assert (F3 : free f3 = ["x1"; "x2"]) by (unfold free, nl_vars; rewrite C1, C2, C6; reflexivity).
  assert (N1 : nwait (FN f1) ["x0"]) by (apply (link_wait "x0" "x1" []); auto; discriminate).
  assert (N2 : nwait (FN f2) ["x1"]) by (apply (link_wait "x1" "z" [("z", 3)]); auto; [discriminate|intros [H|[]]; discriminate H]).
  assert (N3 : nwait (FN f3) ["x1"]) by (apply (link_wait "x1" "x2" []); auto; discriminate).
  assert (TR : tree ex_root (ex_kids f1 f2 f3)).
  { cbn [tree ex_root ex_kids fvars cl_fac node nfree cl_recv]. rewrite F1, F2, F3. repeat split; auto.
    - exists ["x0"]. split; [|cbn; intros v; tauto]. split; cbn; auto; [discriminate|apply nd1|apply incl_refl].
    - intros v _ [].
    - exists ["x1"]. split; [|cbn; intros v; tauto]. split; cbn; auto; [discriminate|apply nd1|]. rewrite A2, A6. split; [apply incl_refl|intros v _ []].
    - cbn. intros v. tauto.
    - exists ["x1"]. split; [|cbn; intros v H [E|[E|[]]]; subst v; [now left|destruct H as [H|[H|[]]]; discriminate H]]. split; cbn; auto; [discriminate|apply nd1|]. rewrite A2, A6. split; [apply incl_refl|intros v _ []].
    - intros v _ []. }
  exists o, f1, f2, f3. split; [exact Ho|]. do 3 (split; [assumption|]). split; [|split; [exact TR|split; [|split; [|split; [|discriminate]]]]].
  - cbn. split; [apply stdg_solid, nd1|]. intros e. unfold gval. rewrite stdg_lp by apply nd1. apply exp_pos.
  - cbn [clear ex_root ex_kids node cl_fac]. split; [exact I|]. split; [|exact I]. split; [|split; [exact I|split; [|split; exact I]]].
    + exists ["x1"], (nl_pot f2). split; [reflexivity|]. split; [|right; left].
      * apply (down_same ["x1"] _ ["x1"] _ (nl_pot f2) _ (nl_pot f2)); try reflexivity; [intros v; cbn [cl_fac node nfree fvars]; rewrite F2; tauto|intros e; cbn [cl_fac node npot fpot]; ring|apply down_refl].
      * intros x (v & [<-|[]] & Hx). assert (E : curv (nl_pot f2) x = curv (fun e => nl_density f2 (over (nl_ev f2) e)) x) by (unfold curv, nl_pot; rewrite B4, B5; cbn [optval]; now rewrite !Rmult_1_l, !Rmult_1_r).
        rewrite E. apply (density_def f2 _ _ 0 _ x OK2 B3). exists 0%nat. rewrite B2. split; [cbn; lia|]. unfold mean_of. rewrite B1, B2, B6. cbn. lra.
    + assert (TR' : tree (node (FN f1) "c1" [("c0", ["x0"]); ("c2", ["x1"]); ("c3", ["x1"])]) (FCons (node (FN f3) "c3" [("c1", ["x1"])]) FNil FNil)).
      { cbn [tree ex_root ex_kids] in TR. cbn [tree]. tauto. }
      destruct (untold_clear o _ _ _ _ Ho TR') as (S & m & E1 & E2 & E3); [cbn; rewrite C4, C6; now split|exact I|]. exists S, m. split; [exact E1|]. split; [exact E2|now left].
  - apply (proj1 (nodupb_iff _)). reflexivity.
  - reflexivity.
Qed.
