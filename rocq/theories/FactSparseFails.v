(** Which error marginalize and reduce of factorised sparse tables raise. *)
From Coq Require Import Lia.
From Verif Require Export FactSparseEx.
From Verif Require Import SparseProofs SparseProofs2 SparseProofs3 BaseFacts GaussModel GraphProd GraphExamples.
Local Open Scope string_scope.
Local Open Scope nat_scope.
Local Open Scope list_scope.

Lemma foldM_inv {A S} (f : S -> A -> res S) (I : S -> Prop) l : (forall s x, In x l -> I s -> exists s', f s x = Ok s' /\ I s') ->
  forall s, I s -> exists s', foldM f l s = Ok s' /\ I s'.
Proof.
  intros H. induction l as [|x l IH]; intros s Is; [exists s; now split|]. cbn [foldM].
  destruct (H s x (or_introl eq_refl) Is) as (s1 & -> & I1). cbn [bind]. apply IH; [intros; apply H; [now right|assumption]|exact I1].
Qed.
Section F.
Context (card : string -> nat).
Notation sg := (sgood card).

Lemma inner_ok o fs os i f merged : oracle_ok o -> (forall g, In g fs -> sg g) -> length os = length fs -> i < length os -> sg f ->
  exists r, fz_merge_inner o fs os i f merged = Ok r /\ sg (fst r).
Proof.
  intros Ho T HL Hi G. unfold fz_merge_inner.
  apply (foldM_inv _ (fun st : sparse * list nat => sg (fst st))); [|exact G].
  intros [g m] j Hj Gg. apply in_seq in Hj. destruct (mem j m); [eexists; split; [reflexivity|exact Gg]|].
  destruct (py_nth_ok os i Hi) as (oi & -> & _). destruct (py_nth_ok os j ltac:(lia)) as (oj & -> & _). cbn [bind].
  destruct (meets oi oj); [|eexists; split; [reflexivity|exact Gg]].
  destruct (py_nth_ok fs j ltac:(lia)) as (fj & -> & Hn). cbn [bind].
  destruct (sg_mul card o g fj Ho Gg) as (p & -> & Gp & _); [apply T, (nth_error_In _ _ Hn)|]. cbn [bind]. eexists. split; [reflexivity|exact Gp].
Qed.
Lemma shared_ok o fs vrs : oracle_ok o -> (forall g, In g fs -> sg g) -> fs <> [] ->
  exists r, fz_merge_shared o fs vrs = Ok r /\ (forall g, In g r -> sg g) /\ r <> [].
Proof.
  intros Ho T N. unfold fz_merge_shared. set (os := map _ fs). assert (HL : length os = length fs) by apply map_length.
  assert (L0 : 0 < length os) by (rewrite HL; destruct fs; [congruence|cbn; lia]).
  assert (seq 0 (length os) = 0 :: seq 1 (length os - 1)) as -> by (replace (length os) with (S (length os - 1)) at 1 by lia; reflexivity).
  cbn [foldM]. unfold mem at 1. cbn [existsb].
  destruct (py_nth_ok fs 0 ltac:(lia)) as (f0 & -> & H0). cbn [bind].
  destruct (inner_ok o fs os 0 f0 [] Ho T HL L0 (T _ (nth_error_In _ _ H0))) as (r0 & -> & G0). cbn [bind app].
  edestruct (foldM_inv (fun (st : list sparse * list nat) i =>
                     let '(out, merged) := st in
                     if mem i merged then Ok st else
                     let* fi := py_nth fs i in
                     let* g := fz_merge_inner o fs os i fi merged in
                     Ok (out ++ [fst g], snd g)) (fun st => (forall g, In g (fst st) -> sg g) /\ fst st <> []) (seq 1 (length os - 1))) as (r & Er & G & Nr).
  3:{ rewrite Er. cbn [bind]. exists (fst r). split; [reflexivity|]. now split. }
  - intros [out m] i Hi [Go No]. apply in_seq in Hi. cbn [fst] in *. destruct (mem i m); [eexists; split; [reflexivity|now split]|].
    destruct (py_nth_ok fs i ltac:(lia)) as (fi & -> & Hn). cbn [bind].
    destruct (inner_ok o fs os i fi m Ho T HL ltac:(lia) (T _ (nth_error_In _ _ Hn))) as (r & -> & Gr). cbn [bind].
    eexists. split; [reflexivity|]. cbn [fst]. split; [|now destruct out].
    intros g Hg. apply in_app_or in Hg. destruct Hg as [Hg|[<-|[]]]; auto.
  - cbn [fst]. split; [intros g [<-|[]]; exact G0|discriminate].
Qed.
(** Something to keep: the steps of the code work until an attribute that tables lack is read. *)
Theorem fz_marginalize_error o a vrs keep : oracle_ok o -> (forall f, In f (fz_factors a) -> sg f) ->
  (exists f v, In f (fz_factors a) /\ In v (svars f) /\ In v (GaussModel.marginal_vars o (fz_vars a) vrs keep)) ->
  fz_marginalize o a vrs keep = Err AttributeError.
Proof.
  intros Ho T (f & v & Hf & Hv & Hk). unfold fz_marginalize. cbv zeta. set (kept := GaussModel.marginal_vars _ _ _ _) in *. set (out := set_diff _ _).
  assert (existsb (fun f => meets kept (svars f)) (fz_factors a) = true) as ->.
  { apply existsb_exists. exists f. split; [exact Hf|]. unfold meets. assert (X : In v (set_inter kept (svars f))) by (apply In_set_inter; now split).
    destruct (set_inter kept (svars f)); [destruct X|reflexivity]. }
  cbn [negb raise_if bind]. rewrite (fz_copy_ok card o a T). cbn [bind renamed fz_factors].
  destruct (shared_ok o (fz_factors a) out Ho T) as (r & Er & G & Nr); [intros E; rewrite E in Hf; destruct Hf|].
  rewrite Er. cbn [bind].
  assert (X : forall fs acc, (forall f, In f fs -> sg f) -> foldM (fz_marg_step o out) fs acc = Err AttributeError \/
     exists ms, foldM (fz_marg_step o out) fs acc = Ok ms /\ length ms = length acc + length fs).
  { induction fs as [|g fs IH]; intros acc Tf; [right; exists acc; split; [reflexivity|cbn; lia]|]. cbn [foldM].
    unfold fz_marg_step at 1 3. destruct (seteqb _ _); [now left|].
    destruct (marg_remove_spec o g (so o (set_inter (svars g) out)) Ho) as (m & -> & _).
    { exact (sg_wf _ _ (Tf g (or_introl eq_refl))). } { exact (sg_zero _ _ (Tf g (or_introl eq_refl))). }
    cbn [bind]. destruct (IH (acc ++ [m])) as [->|(ms & -> & L)]; [intros h Hh; apply Tf; now right|now left|].
    right. exists ms. split; [reflexivity|]. rewrite L, app_length. cbn [length]. lia. }
  destruct (X r [] G) as [->|(ms & -> & L)]; [reflexivity|]. cbn [bind]. destruct ms; [destruct r; [congruence|discriminate]|reflexivity].
Qed.
(** Evidence of positive probability. *)
Lemma evidence_values (e0 : env) vars (l : list string) :
  flat_map (fun v => match dget (combine vars (map e0 vars)) v with Some x => [x] | None => [] end) l =
  map e0 (filter (dmem (combine vars (map e0 vars))) l).
Proof.
  induction l as [|v l IH]; [reflexivity|]. cbn [flat_map filter]. unfold dmem at 1. destruct (dget _ v) as [x|] eqn:G; [|exact IH].
  cbn [app map]. rewrite IH. f_equal. apply dget_In in G. clear -G. induction vars as [|w vars IH]; [destruct G|]. cbn in G.
  destruct G as [E|G]; [inversion E; now subst|auto].
Qed.
Theorem fz_reduce_error a vrs e0 : fz_factors a <> [] -> (forall f, In f (fz_factors a) -> sg f) -> NoDup vrs ->
  (forall f, In f (fz_factors a) -> exists v, In (map e0 (svars f), v) (stbl f)) ->
  fz_reduce a vrs (map e0 vrs) = Err AttributeError.
Proof.
  intros N T Hn HE. unfold fz_reduce.
  assert (X : forall fs acc, (forall f, In f fs -> sg f) -> (forall f, In f fs -> exists v, In (map e0 (svars f), v) (stbl f)) ->
     foldM (fz_reduce_step vrs (map e0 vrs)) fs acc = Err AttributeError \/
     exists rs, foldM (fz_reduce_step vrs (map e0 vrs)) fs acc = Ok rs /\ length rs = length acc + length fs).
  { induction fs as [|f fs IH]; intros acc Tf Ef; [right; exists acc; split; [reflexivity|cbn; lia]|].
    assert (S1 : fz_reduce_step vrs (map e0 vrs) acc f = Err AttributeError \/ exists rs, fz_reduce_step vrs (map e0 vrs) acc f = Ok rs /\ length rs = S (length acc)).
    { assert (Gf : sg f) by (apply Tf; now left). unfold fz_reduce_step. destruct (seteqb vrs (svars f)); [now left|]. right. destruct (meets vrs (svars f)).
      - assert (Nf : NoDup (svars f)) by (apply wf_vars, (sg_struct card f Gf)).
        assert (Hk : NoDup (dkeys (combine vrs (map e0 vrs)))) by (rewrite dkeys_combine by (now rewrite map_length); exact Hn).
        rewrite (dict_of_NoDup _ Hk), subset_evidence_eq by exact Nf. rewrite evidence_values. set (vs := filter _ _).
        destruct (reduce_env_spec f vs (map e0 vs) (sg_wf _ _ Gf) (sg_zero _ _ Gf)) as (r & -> & _).
        + now apply NoDup_filter.
        + intros v Hv. apply filter_In in Hv. tauto.
        + destruct (Ef f (or_introl eq_refl)) as (v & Hv). exists e0, v. now split.
        + cbn [bind]. eexists. split; [reflexivity|]. rewrite app_length. cbn. lia.
      - rewrite s_copy_ok by (apply (sg_struct card f Gf)). cbn [bind]. eexists. split; [reflexivity|]. rewrite app_length. cbn. lia. }
    cbn [foldM]. destruct S1 as [->|(rs & -> & L)]; [now left|]. cbn [bind].
    destruct (IH rs) as [->|(rs' & -> & L')]; [intros g Hg; apply Tf; now right|intros g Hg; apply Ef; now right|now left|].
    right. exists rs'. split; [reflexivity|]. cbn [length]. lia. }
  destruct (X (fz_factors a) [] T HE) as [->|(rs & -> & L)]; [reflexivity|]. cbn [bind].
  destruct rs as [|r rs]; [|reflexivity]. destruct (fz_factors a); [congruence|discriminate].
Qed.
End F.
(** Nothing to keep. *)
Theorem fz_marginalize_nothing o a vrs keep : (forall f v, In f (fz_factors a) -> In v (GaussModel.marginal_vars o (fz_vars a) vrs keep) -> ~ In v (svars f)) ->
  fz_marginalize o a vrs keep = Err PyException.
Proof.
  intros H. unfold fz_marginalize. assert (existsb (fun f => meets (GaussModel.marginal_vars o (fz_vars a) vrs keep) (svars f)) (fz_factors a) = false) as ->; [|reflexivity].
  destruct (existsb _ _) eqn:E; [|reflexivity]. exfalso. apply existsb_exists in E. destruct E as (f & Hf & E). unfold meets in E.
  destruct (set_inter (GaussModel.marginal_vars o (fz_vars a) vrs keep) (svars f)) as [|v l] eqn:EI; [discriminate|].
  assert (Hv : In v (set_inter (GaussModel.marginal_vars o (fz_vars a) vrs keep) (svars f))) by (rewrite EI; now left).
  apply In_set_inter in Hv. destruct Hv as [H1 H2]. exact (H f v Hf H1 H2).
Qed.
Lemma error_hyps : (forall f, In f (fz_factors ex_fz) -> sgood two f) /\
  (exists f v, In f (fz_factors ex_fz) /\ In v (svars f) /\ In v (GaussModel.marginal_vars SparseExamples.id_oracle (fz_vars ex_fz) ["a"; "1#c"] true)) /\
  fz_factors ex_fz <> [] /\ forall f, In f (fz_factors ex_fz) -> exists v, In (map (fun _ => 1) (svars f), v) (stbl f).
Proof.
  split; [exact ex_all|]. split; [exists gx_ab, "a"; cbn; tauto|]. split; [discriminate|].
  intros f [<-|[<-|[]]]; eexists; cbn; eauto 10.
Qed.
