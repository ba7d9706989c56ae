(** Factorised factors: the merging loops and the marginal. *)
From Verif Require Export FactMarg.
#[global] Set Bullet Behavior "Strict Subproofs".

Definition no_gauss : gauss := {| ga_vars := []; ga_vac := false; ga_can := None; ga_cov := None |}.
Lemma py_nth_in {A} (l : list A) i d : i < length l -> py_nth l i = Ok (nth i l d).
Proof. intros H. unfold py_nth. now rewrite (nth_error_nth' l d H). Qed.
Lemma perm_split {A} (p q : A -> bool) l :
  Permutation (filter (fun x => p x && q x) l ++ filter (fun x => p x && negb (q x)) l) (filter p l).
Proof.
  induction l as [|x l IH]; [constructor|]. cbn [filter]. destruct (p x), (q x); cbn [andb negb app]; try exact IH.
  - now constructor.
  - rewrite <- Permutation_middle. now constructor.
Qed.
Lemma filter_ext_in' {A} (p q : A -> bool) l : (forall x, In x l -> p x = q x) -> filter p l = filter q l.
Proof.
  induction l as [|x l IH]; intros H; [reflexivity|]. cbn [filter]. rewrite (H x (or_introl eq_refl)), IH; [reflexivity|]. intros y Hy. apply H. now right.
Qed.
Lemma meets_sym l m : meets l m = meets m l.
Proof.
  destruct (meets m l) eqn:E.
  - apply meets_true. apply meets_true in E. destruct E as (v & H1 & H2). now exists v.
  - apply meets_false. intros v Hl Hm. exact (proj1 (meets_false _ _) E v Hm Hl).
Qed.

Section Merge.
Context (fs : list gauss) (out : list string).
Hypothesis HS : forall f, In f fs -> solid f /\ plain f.
Let F (j : nat) := nth j fs no_gauss.
Let os := map (fun f => set_inter (ga_vars f) out) fs.
Let O (j : nat) : list string := nth j os [].
Definition rep (g : gauss) (P : list nat) : Prop := solid g /\ plain g /\
  (forall v, In v (ga_vars g) <-> exists j, In j P /\ In v (ga_vars (F j))) /\ forall e, lv g e = lvs (map F P) e.

Lemma os_length : length os = length fs.
Proof. apply map_length. Qed.
Lemma O_eq j : j < length fs -> O j = set_inter (ga_vars (F j)) out.
Proof.
  intros Hj. unfold O, os, F. rewrite (nth_indep _ [] (set_inter (ga_vars no_gauss) out)) by now rewrite map_length.
  exact (map_nth (fun f => set_inter (ga_vars f) out) fs no_gauss j).
Qed.
Definition istep (i : nat) (st : gauss * list nat) (j : nat) : res (gauss * list nat) :=
  let '(g, merged) := st in
           if mem j merged then Ok st else
           let* oi := py_nth os i in
           let* oj := py_nth os j in
           if meets oi oj then
             let* fj := py_nth fs j in
             let* g' := g_multiply g fj in
             Ok (g', merged ++ [j])
           else Ok st.
Lemma inner_ok i l : i < length fs -> (forall j, In j l -> j < length fs) -> NoDup l -> forall g P merged, rep g P ->
  let hits := filter (fun j => negb (mem j merged) && meets (O i) (O j)) l in
  exists g', foldM (istep i) l (g, merged) = Ok (g', merged ++ hits) /\ rep g' (P ++ hits).
Proof.
  intros Hi. induction l as [|j l IH]; intros Hl Hd g P merged Rg hits.
  - subst hits. cbn [filter foldM]. exists g. now rewrite !app_nil_r.
  - inversion Hd as [|? ? Hn Hd']; subst. specialize (IH (fun k Hk => Hl k (or_intror Hk)) Hd'). cbn [foldM]. unfold istep at 1.
    destruct (mem j merged) eqn:Em.
    { destruct (IH g P merged Rg) as (g' & E & Rg'). cbn [bind]. exists g'. subst hits. cbn [filter]. rewrite Em. cbn [negb andb]. now split. }
    pose proof (Hl j (or_introl eq_refl)) as Hj. rewrite (py_nth_in os i []), (py_nth_in os j []) by now rewrite os_length. cbn [bind].
    change (nth i os []) with (O i). change (nth j os []) with (O j).
    destruct (meets (O i) (O j)) eqn:Eo.
    2: { destruct (IH g P merged Rg) as (g' & E & Rg'). cbn [bind]. exists g'. subst hits. cbn [filter]. rewrite Em, Eo. cbn [negb andb]. now split. }
    rewrite (py_nth_in fs j no_gauss Hj). cbn [bind]. change (nth j fs no_gauss) with (F j).
    destruct Rg as (Sg & Pg & Vg & Lg). destruct (HS (F j)) as (Sj & Pj); [apply nth_In; exact Hj|].
    destruct (multiply_solid g (F j) Sg Sj) as (g1 & E1 & S1 & V1 & L1 & P1). rewrite E1. cbn [bind].
    assert (R1 : rep g1 (P ++ [j])).
    { split; [exact S1|]. split; [now apply P1|]. split.
      - intros v. rewrite V1, Vg. split.
        + intros [(k & Hk & Hv)|Hv]; [exists k|exists j]; (split; [apply in_or_app|exact Hv]); [now left|right; now left].
        + intros (k & Hk & Hv). apply in_app_or in Hk. destruct Hk as [Hk|[<-|[]]]; [left; now exists k|now right].
      - intros e. rewrite L1, Lg, map_app, lvs_app. cbn [map]. rewrite lvs_cons. change (lvs [] e) with (Fin 0). now rewrite vadd_0_r. }
    destruct (IH g1 (P ++ [j]) (merged ++ [j]) R1) as (g' & E & Rg'). exists g'. rewrite E.
    assert (Eh : [j] ++ filter (fun k => negb (mem k (merged ++ [j])) && meets (O i) (O k)) l = hits).
    { subst hits. cbn [filter]. rewrite Em, Eo. cbn [negb andb app]. f_equal. apply filter_ext_in'. intros k Hk. f_equal. f_equal.
      destruct (mem k merged) eqn:Ek; [apply mem_In, in_or_app; left; now apply mem_In|]. apply mem_nIn. apply mem_nIn in Ek.
      intros Hk'. apply in_app_or in Hk'. destruct Hk' as [Hk'|[<-|[]]]; [exact (Ek Hk')|exact (Hn Hk)]. }
    rewrite <- !app_assoc in *. rewrite <- Eh. now split.
Qed.
Definition apart (P Q : list nat) : Prop := forall a b, In a P -> In b Q -> meets (O a) (O b) = false.
Lemma outer_ok : (forall i j k, i < length fs -> j < length fs -> k < length fs -> meets (O i) (O j) = true -> meets (O j) (O k) = true -> meets (O i) (O k) = true) ->
  forall k i out0 merged, i + k = length fs ->
  exists outs merged' Ps, foldM (fun (st : list gauss * list nat) i =>
                     let '(out, merged) := st in
                     if mem i merged then Ok st else
                     let* fi := py_nth fs i in
                     let* g := merge_inner fs os i fi merged in
                     Ok (out ++ [fst g], snd g)) (seq i k) (out0, merged) = Ok (out0 ++ outs, merged') /\
    Forall2 rep outs Ps /\ Permutation (concat Ps) (filter (fun j => negb (mem j merged)) (seq i k)) /\ ForallOrdPairs apart Ps.
Proof.
  intros HT. induction k as [|k IH]; intros i out0 merged Hik.
  - exists [], merged, []. cbn [seq foldM filter concat]. rewrite app_nil_r. split; [reflexivity|]. split; [constructor|]. split; [constructor|constructor].
  - cbn [seq foldM]. destruct (mem i merged) eqn:Em.
    { destruct (IH (S i) out0 merged ltac:(lia)) as (outs & merged' & Ps & E & FR & HP & HA). exists outs, merged', Ps. cbn [bind filter].
      rewrite Em. cbn [negb]. now split. }
    assert (Hi : i < length fs) by lia. rewrite (py_nth_in fs i no_gauss Hi). cbn [bind]. change (nth i fs no_gauss) with (F i).
    destruct (HS (F i)) as (Si & Pi); [apply nth_In; exact Hi|].
    assert (Ri : rep (F i) [i]).
    { split; [exact Si|]. split; [exact Pi|]. split.
      - intros v. split; [intros Hv; exists i; split; [now left|exact Hv]|intros (j & [<-|[]] & Hv); exact Hv].
      - intros e. cbn [map]. rewrite lvs_cons. change (lvs [] e) with (Fin 0). now rewrite vadd_0_r. }
    unfold merge_inner at 1. fold (istep i). rewrite os_length. replace (length fs - S i) with k by lia.
    destruct (inner_ok i (seq (S i) k) Hi) with (g := F i) (P := [i]) (merged := merged) as (g & Eg & Rg); [intros j Hj; apply in_seq in Hj; lia|apply seq_NoDup|exact Ri|].
    rewrite Eg. cbn [bind fst snd]. set (hits := filter (fun j => negb (mem j merged) && meets (O i) (O j)) (seq (S i) k)) in *.
    destruct (IH (S i) (out0 ++ [g]) (merged ++ hits) ltac:(lia)) as (outs & merged' & Ps & E & FR & HP & HA).
    exists (g :: outs), merged', (([i] ++ hits) :: Ps). rewrite E, <- app_assoc. split; [reflexivity|]. split; [now constructor|].
    assert (Ef : filter (fun j => negb (mem j (merged ++ hits))) (seq (S i) k) = filter (fun j => negb (mem j merged) && negb (meets (O i) (O j))) (seq (S i) k)).
    { apply filter_ext_in'. intros j Hj. destruct (mem j (merged ++ hits)) eqn:E1; cbn [negb].
      - apply mem_In, in_app_or in E1. destruct E1 as [E1|E1]; [apply mem_In in E1; now rewrite E1|]. unfold hits in E1. apply filter_In in E1.
        destruct E1 as (_ & E1). apply andb_prop in E1. destruct E1 as (E1 & E2). rewrite E1, E2. reflexivity.
      - apply mem_nIn in E1. destruct (mem j merged) eqn:E2; [destruct E1; apply in_or_app; left; now apply mem_In|]. cbn [negb andb].
        destruct (meets (O i) (O j)) eqn:E3; [|reflexivity]. destruct E1. apply in_or_app. right. unfold hits. apply filter_In. split; [exact Hj|].
        now rewrite E2, E3. }
    rewrite Ef in HP. split.
    + cbn [filter concat app]. rewrite Em. cbn [negb]. constructor. rewrite HP. apply perm_split.
    + constructor; [|exact HA]. apply Forall_forall. intros Q HQ a b Ha Hb.
      assert (Hb' : In b (concat Ps)) by (apply in_concat; now exists Q). apply (Permutation_in _ HP), filter_In in Hb'. destruct Hb' as (Bs & Bc).
      apply in_seq in Bs. apply andb_prop in Bc. destruct Bc as (_ & Bc). apply Bool.negb_true_iff in Bc.
      destruct Ha as [<-|Ha]; [exact Bc|]. unfold hits in Ha. apply filter_In in Ha. destruct Ha as (As & Ac). apply in_seq in As.
      apply andb_prop in Ac. destruct Ac as (_ & Ac). destruct (meets (O a) (O b)) eqn:Eab; [|reflexivity].
      rewrite (HT i a b) in Bc by (assumption || lia). discriminate.
Qed.
Definition shares (f g : gauss) : Prop := exists v, In v out /\ In v (ga_vars f) /\ In v (ga_vars g).
Lemma shares_meets i j : i < length fs -> j < length fs -> (meets (O i) (O j) = true <-> shares (F i) (F j)).
Proof.
  intros Hi Hj. rewrite meets_true, !O_eq by assumption. split.
  - intros (v & H1 & H2). apply In_set_inter in H1, H2. exists v. tauto.
  - intros (v & H1 & H2 & H3). exists v. rewrite !In_set_inter. tauto.
Qed.
Definition disj_out (g h : gauss) : Prop := forall v, In v out -> In v (ga_vars g) -> ~ In v (ga_vars h).
Theorem merge_ok : (forall f g h, In f fs -> In g fs -> In h fs -> shares f g -> shares g h -> shares f h) ->
  exists gs, merge_shared fs out = Ok gs /\ (forall g, In g gs -> solid g /\ plain g) /\ (forall v, in_scope gs v <-> in_scope fs v) /\
    (forall e, lvs gs e = lvs fs e) /\ ForallOrdPairs disj_out gs.
Proof.
  intros HT. destruct outer_ok with (k := length fs) (i := 0) (out0 := @nil gauss) (merged := @nil nat) as (gs & merged' & Ps & E & FR & HP & HA).
  { intros i j k Hi Hj Hk H1 H2. apply shares_meets in H1, H2; try assumption. apply shares_meets; try assumption.
    apply (HT _ (F j)); auto; unfold F; now apply nth_In. }
  { reflexivity. }
  unfold merge_shared. fold os. rewrite os_length. rewrite E. cbn [bind fst app]. exists gs. split; [reflexivity|].
  assert (Hf : filter (fun j => negb (mem j [])) (seq 0 (length fs)) = seq 0 (length fs)) by (apply filter_true; reflexivity). rewrite Hf in HP.
  assert (Hm : map F (seq 0 (length fs)) = fs).
  { unfold F. clear. apply (nth_ext _ _ (nth 0 fs no_gauss) no_gauss); rewrite map_length, seq_length; [reflexivity|]. intros n Hn.
    rewrite (map_nth (fun j => nth j fs no_gauss)). now rewrite seq_nth. }
  assert (Hidx : forall P j, In P Ps -> In j P -> j < length fs).
  { intros P j HPs Hj. assert (In j (concat Ps)) as Hc by (apply in_concat; now exists P). apply (Permutation_in _ HP), in_seq in Hc. lia. }
  split; [|split; [|split]].
  - intros g Hg. destruct (F2_in_l _ _ _ g FR Hg) as (P & _ & (Sg & Pg & _)). now split.
  - intros v. split.
    + intros (g & Hg & Hv). destruct (F2_in_l _ _ _ g FR Hg) as (P & HPs & (_ & _ & Vg & _)). apply Vg in Hv. destruct Hv as (j & Hj & Hv).
      exists (F j). split; [|exact Hv]. unfold F. apply nth_In. now apply (Hidx P).
    + intros (f & Hf' & Hv). rewrite <- Hm in Hf'. apply in_map_iff in Hf'. destruct Hf' as (j & <- & Hj). apply (Permutation_in _ (Permutation_sym HP)) in Hj.
      apply in_concat in Hj. destruct Hj as (P & HPs & Hj). destruct (F2_in_r _ _ _ P FR HPs) as (g & Hg & (_ & _ & Vg & _)). exists g. split; [exact Hg|].
      apply Vg. now exists j.
  - intros e. transitivity (lvs (map F (concat Ps)) e).
    + clear -FR. induction FR as [|g P gs Ps (_ & _ & _ & Lg) FR IH]; [reflexivity|]. cbn [concat]. now rewrite map_app, lvs_app, lvs_cons, Lg, IH.
    + transitivity (lvs (map F (seq 0 (length fs))) e); [now apply lvs_perm, Permutation_map|now rewrite Hm].
  - clear -FR HA Hidx. revert gs FR Hidx. induction HA as [|P Ps HF HA IH]; intros gs FR Hidx; inversion FR as [|g ? gs' ? Rg FR']; subst; [constructor|].
    constructor; [|apply IH; [exact FR'|intros Q j HQ; apply Hidx; now right]]. apply Forall_forall. intros h Hh v Hout Hg Hhv.
    destruct (F2_in_l _ _ _ h FR' Hh) as (Q & HQ & (_ & _ & Vh & _)). destruct Rg as (_ & _ & Vg & _). apply Vg in Hg. apply Vh in Hhv.
    destruct Hg as (a & Ha & Hav). destruct Hhv as (b & Hb & Hbv). rewrite Forall_forall in HF. specialize (HF Q HQ a b Ha Hb).
    assert (La : a < length fs) by (apply (Hidx P); [now left|exact Ha]). assert (Lb : b < length fs) by (apply (Hidx Q); [now right|exact Hb]).
    enough (meets (O a) (O b) = true) by congruence. apply shares_meets; auto. exists v. auto.
Qed.
End Merge.
