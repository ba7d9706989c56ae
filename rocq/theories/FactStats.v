(** Factorised factors: comparison of different shapes and vacuity. *)
From Verif Require Export FactExamples2.
#[global] Set Bullet Behavior "Strict Subproofs".
Local Open Scope string_scope.
Local Open Scope R_scope.

Lemma fg_equals_scope a b v : (In v (fg_vars a) /\ ~ In v (fg_vars b)) \/ (~ In v (fg_vars a) /\ In v (fg_vars b)) ->
  fg_equals a b = Ok (false, fg_factors a, fg_factors b).
Proof.
  intros H. unfold fg_equals. destruct (seteqb (fg_vars b) (fg_vars a)) eqn:E; [|reflexivity]. exfalso. pose proof (proj1 (seteqb_iff _ _) E v). tauto.
Qed.
Lemma multiply_canonical f1 f2 r : solid f1 -> solid f2 -> g_multiply f1 f2 = Ok r -> solid r /\ canonical r.
Proof.
  intros S1 S2 E. destruct (multiply_solid f1 f2 S1 S2) as (r' & E' & Sr & _). assert (r' = r) as -> by congruence. split; [exact Sr|].
  pose proof Sr as (W & V & _). split; [exact W|]. split; [exact V|]. pose proof S1 as (W1 & _). pose proof S2 as (W2 & _).
  destruct (get_can_solid f1 S1) as (f1' & K1 & h1 & g1 & E1 & P1 & (A1 & A2 & A3 & A4)).
  destruct (get_can_solid f2 S2) as (f2' & K2 & h2 & g2 & E2 & P2 & (B1 & B2 & B3 & B4)).
  pose proof W1 as (D1 & _). pose proof W2 as (D2 & _).
  unfold g_multiply, absorb_or_cancel in E. rewrite E1, E2 in E. cbn [bind snd] in E.
  rewrite ix_square_ok, ix_column_ok in E by assumption. cbn [bind fst snd] in E. set (nv := new_vars (ga_vars f1) (ga_vars f2)) in *.
  unfold py_assert in E. destruct (eqb nv nv) eqn:Eq; [|discriminate E]. cbn [bind] in E.
  match type of E with mk_can nv ?M ?t ?g = _ => rewrite (mk_can_ok nv M t g (new_vars_NoDup _ _ D1 D2)) in E by (cbn; now repeat split) end.
  injection E as <-. eexists. reflexivity.
Qed.
Lemma fold_canonical fs : forall c j, solid c -> canonical c -> (forall f, In f fs -> solid f) -> foldM g_multiply fs c = Ok j -> canonical j.
Proof.
  induction fs as [|f fs IH]; intros c j Sc Cc H E; cbn [foldM] in E; [congruence|]. apply bind_ok in E. destruct E as (p & Ep & E).
  destruct (multiply_canonical c f p Sc (H f (or_introl eq_refl)) Ep) as (Sp & Cp). apply (IH p j Sp Cp); [|exact E]. intros g Hg. apply H. now right.
Qed.
Lemma joint_canonical a j : (forall f, In f (fg_factors a) -> solid f /\ canonical f) -> fg_joint a = Ok j -> canonical j.
Proof.
  intros H E. unfold fg_joint in E. destruct (fg_factors a) as [|f fs]; [discriminate E|]. destruct (H f (or_introl eq_refl)) as (Sf & (W & V & (p & Hp))).
  apply bind_ok in E. destruct E as (c & Ec & E). destruct (solid_copy f Sf) as (c' & Ec' & Sc & _). assert (c' = c) as -> by congruence.
  destruct (g_copy_ok f W) as (c' & E' & _ & C & _). assert (c' = c) as -> by congruence.
  apply (fold_canonical fs c j Sc); [|intros g Hg; apply H; now right|exact E]. split; [apply Sc|]. split; [apply Sc|]. exists p. congruence.
Qed.
Theorem fg_equals_shapes a b :
  (forall v, In v (fg_vars a) <-> In v (fg_vars b)) -> length (fg_factors a) <> length (fg_factors b) -> fg_factors a <> [] -> fg_factors b <> [] ->
  (forall f, In f (fg_factors a) \/ In f (fg_factors b) -> solid f /\ canonical f) ->
  exists r ja jb, fg_equals a b = Ok (r, fg_factors a, fg_factors b) /\
    (forall e, lp ja e = Ok (lvs (fg_factors a) e)) /\ (forall e, lp jb e = Ok (lvs (fg_factors b) e)) /\ (r = true <-> matches ja jb).
Proof.
  intros HV HL Na Nb H. destruct (joint_spec a Na) as (ja & Ja & Wja & _ & La). { intros f Hf. apply H. now left. }
  destruct (joint_spec b Nb) as (jb & Jb & Wjb & _ & Lb). { intros f Hf. apply H. now right. }
  assert (Ca : canonical ja). { apply (joint_canonical a); [|exact Ja]. intros f Hf. apply H. now left. }
  assert (Cb : canonical jb). { apply (joint_canonical b); [|exact Jb]. intros f Hf. apply H. now right. }
  destruct (equals_matches ja jb Ca Cb) as (r & jb' & Er & _ & Hr). exists r, ja, jb. split; [|split; [exact La|split; [exact Lb|exact Hr]]].
  unfold fg_equals. rewrite (proj2 (seteqb_iff (fg_vars b) (fg_vars a))) by (intros v; symmetry; apply HV). cbn [negb].
  rewrite (proj2 (Nat.eqb_neq _ _) HL). cbn [negb]. rewrite Ja, Jb. cbn [bind]. rewrite Er. reflexivity.
Qed.
Theorem fg_is_vacuous_spec a :
  (fg_is_vacuous a = Ok true <-> forall f, In f (fg_factors a) -> ga_vac f = true) /\
  (fg_is_vacuous a = Ok false <-> fg_factors a <> [] /\ forall f, In f (fg_factors a) -> ga_vac f = false) /\
  (fg_is_vacuous a = Err NotImplementedError <-> exists f g, In f (fg_factors a) /\ In g (fg_factors a) /\ ga_vac f = true /\ ga_vac g = false).
Proof.
  unfold fg_is_vacuous. destruct (forallb ga_vac (fg_factors a)) eqn:E1.
  - rewrite forallb_forall in E1. split; [now split|]. split; (split; [intros X; discriminate X|]).
    + intros (Hn & H). destruct (fg_factors a) as [|f fs]; [congruence|]. pose proof (E1 f (or_introl eq_refl)). pose proof (H f (or_introl eq_refl)). congruence.
    + intros (f & g & _ & Hg & _ & Eg). pose proof (E1 g Hg). congruence.
  - assert (Hg : exists g, In g (fg_factors a) /\ ga_vac g = false).
    { clear -E1. induction (fg_factors a) as [|x l IH]; [discriminate E1|]. cbn [forallb] in E1. destruct (ga_vac x) eqn:Ex; [|exists x; split; [now left|exact Ex]].
      destruct (IH E1) as (g & Hg & Eg). exists g. split; [now right|exact Eg]. }
    destruct Hg as (g & Hg & Eg). destruct (forallb (fun f => negb (ga_vac f)) (fg_factors a)) eqn:E2.
    + rewrite forallb_forall in E2. split; [split; [intros X; discriminate X|intros H; pose proof (H g Hg); congruence]|]. split.
      * split; [|reflexivity]. intros _. split; [intros X; rewrite X in Hg; destruct Hg|]. intros f Hf. pose proof (E2 f Hf) as Q. now destruct (ga_vac f).
      * split; [intros X; discriminate X|]. intros (f & h & Hf & _ & Ef & _). pose proof (E2 f Hf) as Q. rewrite Ef in Q. discriminate Q.
    + split; [split; [intros X; discriminate X|intros H; pose proof (H g Hg); congruence]|]. split.
      * split; [intros X; discriminate X|]. intros (_ & H). exfalso. enough (true = false) by congruence. rewrite <- E2. symmetry. apply forallb_forall. intros f Hf. now rewrite (H f Hf).
      * split; [|reflexivity]. intros _. assert (Hf : exists f, In f (fg_factors a) /\ ga_vac f = true).
        { clear -E2. induction (fg_factors a) as [|x l IH]; [discriminate E2|]. cbn [forallb] in E2. destruct (ga_vac x) eqn:Ex; [exists x; split; [now left|exact Ex]|].
          destruct (IH E2) as (f & Hf & Ef). exists f. split; [now right|exact Ef]. }
        destruct Hf as (f & Hf & Ef). exists f, g. now repeat split.
Qed.
Theorem fg_distance_solid a : fg_factors a <> [] -> (forall f, In f (fg_factors a) -> solid f /\ plain f) -> fg_distance a = Ok PInf.
Proof.
  intros Hn H. destruct (joint_solid a Hn H) as (j & E & (_ & V & _) & _). unfold fg_distance, g_distance_from_vacuous. rewrite E. cbn [bind]. now rewrite V.
Qed.
(** A vacuous factor beside a proper one. *)
Definition vac_b : gauss := {| ga_vars := ["b"]; ga_vac := true; ga_can := Some (mzeros 1 1, mzeros 1 1, Fin 0); ga_cov := None |}.
Lemma vac_mixed : fg_is_vacuous {| fg_vars := ["a"; "b"]; fg_factors := [one_v "a" 1; vac_b] |} = Err NotImplementedError /\
  fg_is_vacuous {| fg_vars := ["a"]; fg_factors := [one_v "a" 1] |} = Ok false /\ fg_is_vacuous {| fg_vars := ["b"]; fg_factors := [vac_b] |} = Ok true.
Proof. repeat split. Qed.
(** The same product as two factors and as one. *)
Definition two_fg : fg := {| fg_vars := ["a"]; fg_factors := [one_v "a" 1; one_v "a" 2] |}.
Definition one_fg : fg := {| fg_vars := ["a"]; fg_factors := [one_v "a" 3] |}.
Lemma one_v_canonical v k : 0 < k -> canonical (one_v v k).
Proof. intros Hk. destruct (one_v_solid v k Hk) as ((W & V & _) & _). split; [exact W|]. split; [exact V|]. eexists. reflexivity. Qed.
Lemma shapes_hyps : (forall v, In v (fg_vars two_fg) <-> In v (fg_vars one_fg)) /\ length (fg_factors two_fg) <> length (fg_factors one_fg) /\
  (forall f, In f (fg_factors two_fg) \/ In f (fg_factors one_fg) -> solid f /\ canonical f) /\ (forall f, In f (fg_factors two_fg) -> solid f /\ plain f).
Proof.
  assert (A : forall k, 0 < k -> solid (one_v "a" k) /\ plain (one_v "a" k)) by (intros k; apply one_v_solid).
  assert (B : forall k, 0 < k -> solid (one_v "a" k) /\ canonical (one_v "a" k)) by (intros k Hk; split; [apply A|apply one_v_canonical]; exact Hk).
  split; [reflexivity|]. split; [cbn; lia|]. split.
  - intros f [[<-|[<-|[]]]|[<-|[]]]; apply B; lra.
  - intros f [<-|[<-|[]]]; apply A; lra.
Qed.
