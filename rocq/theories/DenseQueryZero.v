(** Tables with zeros: queries about several variables after two sweeps. *)
From Coq Require Import ZArith.
From Verif Require Export DenseZeroSweep DenseQuery.
Local Open Scope string_scope.
Local Open Scope nat_scope.
Local Open Scope list_scope.

Section Zero.
Variable card : string -> nat.
Variable nm : string -> list aname.
Notation good := (zgood card nm).
Variable o : oracle.
Hypothesis Ho : oracle_ok o.
Context (factors : list dense) (ev : option (dict string nat)) (special : dict string nat) (g0 : cgraph dense nat).
Hypothesis G : forall f, In f factors -> good f.
Hypothesis Hmk : mk_graph (dense_ops o) o factors ev special = Ok g0.
Hypothesis Hlin : lined g0.
Notation L := (zero_lawful card nm o).
Let zb := zbuilt card nm o Ho factors ev special g0 G Hmk Hlin.

Lemma zero_queries ks e0 g' : tree_shaped g0 -> two_sweeps g0 ks ->
  agrees_opt ev e0 -> agrees special e0 -> fits card factors e0 -> (forall f, In f factors -> dpot f e0 <> 0%R) ->
  foldM (pass_path (dense_ops o)) ks g0 = Ok g' ->
  forall vs, answers_in_order g' vs -> (forall v, In v vs -> ~ In v (dkeys special)) -> (exists c, In c (g_cl g0) /\ incl vs (dvars (cl_fac c))) ->
  exists res, get_marginal (dense_ops o) g' vs = Ok res /\ dvars res = vs /\
    forall rem e, agrees_opt ev e -> agrees special e -> fits card factors e -> NoDup rem ->
      (forall w, In w rem <-> (exists f, In f factors /\ In w (dvars f)) /\ ~ In w (observed ev) /\ ~ In w (dkeys special) /\ ~ In w vs) ->
      dpot res e = sum_over card rem (fun e' => Rprod (map (fun f => dpot f e') factors)) e.
Proof.
  intros TR TS E1 E2 E3 E4 P vs Or Hv (c00 & Hc00 & Hi00). pose proof (zfits_positive card nm factors ev special G e0 E1 E2 E3 E4) as HP.
  destruct (mk_graph_made (zero_ops o) o factors ev special g0 Ho zb) as (reduced & final & M).
  destruct (history_live (zero_ops o) card good dpt L o factors ev special g0 Ho G reduced final g0 M (hi_init _ _)) as [Gfin LV].
  pose proof (sa_struct _ _ _ (lv_static _ _ _ _ _ _ _ _ LV)) as ST.
  assert (Hk : forall k, In k ks -> k < length (g_paths g0)).
  { intros k Hk. destruct TS as (r & ord & _ & _ & HF). clear - Hk HF. induction HF as [|k' e ks es He _ IH]; [destruct Hk|].
    destruct Hk as [->|Hk]; [|auto]. destruct He as (p & Hp & _). apply nth_error_Some. congruence. }
  pose proof (final_pos (zero_ops o) card good dpt L o factors ev special reduced final g0 e0 M G E1 (proj2 (proj2 HP))) as Pf.
  destruct (passes_ok (zero_ops o) card good dpt L o final ev special Ho Gfin e0 E2 Pf ks g0 LV Hk) as (g1 & Hg').
  assert (Eg : g1 = g').
  { assert (Q : foldM (pass_path (dense_ops o)) ks g0 = Ok g1); [|congruence].
    apply (live_passes_same card nm o Ho factors ev special g0 G Hmk Hlin reduced final M ks g0 g1 LV (made_ordered card nm o Ho factors ev special g0 G Hmk Hlin reduced final M)); [exact (sweeps_nodup o ev special final g0 ks ST TS)| |exact Hg'].
    intros k p _ Hp. apply (mk_path _ _ _ _ _ _ _ _ M k p Hp). }
  subst g1. assert (Hh : history (zero_ops o) g0 g') by (eapply (history_passes (zero_ops o)); [apply hi_init|exact Hg']).
  destruct (history_live (zero_ops o) card good dpt L o factors ev special g0 Ho G reduced final g' M Hh) as [_ LV'].
  pose proof (lv_inv _ _ _ _ _ _ _ _ LV') as IV.
  destruct (made_pt (zero_ops o) card good dpt L o factors ev special reduced final g0 M G) as (_ & _ & S3).
  assert (GC : forall d, In d (g_cl g') -> good (cl_fac d) /\ forall v, In v (dvars (cl_fac d)) -> exists f, In f factors /\ In v (dvars f)).
  { intros d Hd. apply In_nth_error in Hd. destruct Hd as (i & Hd). destruct (iv_cl _ _ _ _ _ _ _ _ IV i d Hd) as (f2 & F2 & _ & (Gc & Hs) & _). split; [exact Gc|].
    intros v Hw. apply Hs in Hw. destruct (proj1 (S3 v)) as [R _]; [|exact R]. exists f2. split; [eapply nth_error_In; eauto|exact Hw]. }
  assert (HC : exists c, In c (g_cl g') /\ incl vs (dvars (cl_fac c))).
  { apply In_nth_error in Hc00. destruct Hc00 as (i & Hc00). pose proof (made_facs _ _ _ _ _ _ _ _ M) as E.
    assert (Fi : nth_error final i = Some (cl_fac c00)) by (rewrite <- E, nth_error_map, Hc00; reflexivity).
    destruct (nth_error (g_cl g') i) as [c|] eqn:Ec.
    - destruct (iv_cl _ _ _ _ _ _ _ _ IV i c Ec) as (f2 & X2 & _ & (_ & Hs) & _). rewrite Fi in X2. injection X2 as <-. exists c. split; [eapply nth_error_In; eauto|].
      intros v Hw. apply Hs. now apply Hi00.
    - apply nth_error_None in Ec. rewrite (iv_len _ _ _ _ _ _ _ _ IV) in Ec. assert (i < length final) by (apply nth_error_Some; congruence). lia. }
  destruct HC as (c & Hc & Hi).
  assert (Nv : NoDup vs) by (apply (listed_NoDup vs (dvars (cl_fac c))); [exact (ws_vars _ (zg_wf card nm _ (proj1 (GC c Hc))))|now apply Or]).
  destruct (marginal_some (zero_ops o) card good dpt L o factors ev special g0 Ho G zb g' vs e0 Hh HP Nv Hv) as (res & Hres); [eauto|].
  assert (SP : g_spec g' = special) by (destruct (history_static (zero_ops o) _ _ _ _ _ _ _ _ M Hh) as (_ & Hsp & _); exact Hsp).
  assert (AS : get_marginal (dense_ops o) g' vs = Ok res /\ good res /\ dvars res = vs).
  { pose proof Hres as Hm. unfold get_marginal in Hm |- *. cbn [dense_ops zero_ops f_vars f_reduce f_marg] in Hm |- *.
    destruct (find _ (g_cl g')) as [d|] eqn:Fc; [|discriminate]. apply find_some in Fc. destruct Fc as [Hin Hsub].
    apply subsetb_incl in Hsub. pose proof (Or d Hin Hsub) as Ld. destruct (GC d Hin) as (Gc & _). pose proof (ws_vars _ (zg_wf card nm _ Gc)) as Hn.
    destruct (subset_evidence (g_spec g') (dvars (cl_fac d))) as [evs vals] eqn:E.
    destruct (subset_evidence_spec _ _ evs vals Hn E) as (X1 & X2 & X3). rewrite SP in X2.
    apply bind_ok in Hm. destruct Hm as (fr & Hfr & Hm). rewrite Hfr. cbn [bind].
    assert (R : good fr /\ listed vs (dvars fr)).
    { destruct (Nat.ltb 0 (length evs)); [|injection Hfr as <-; auto].
      assert (Hi' : incl evs (dvars (cl_fac d))) by (intros w Hw; apply X2 in Hw; tauto).
      destruct (zreduce_law card nm _ _ _ fr Gc X1 Hi' X3 Hfr) as (G1 & _). split; [exact G1|].
      rewrite (zreduce_vars card nm _ _ _ fr Gc X1 Hi' X3 Hfr). apply listed_filter; [exact Ld|]. intros v Hw. apply negb_true_iff, mem_nIn. intros C. apply X2 in C. now apply (Hv v). }
    destruct R as [Gf Lf].
    destruct (zmarg_law card nm o fr vs Gf Nv ltac:(intros w Hw; now apply (listed_In vs))) as (r & M1 & M2 & _ & M3 & _).
    unfold listed in Lf. rewrite Lf in M1, M3, Hm. assert (r = res) by congruence. subst r. auto. }
  destruct AS as (A1 & A2 & A3). exists res. split; [exact A1|]. split; [exact A3|].
  destruct (sweeps_exact (zero_ops o) card good dpt L o factors ev special g0 Ho G zb g0 ks g' vs res (hi_init _ _) TR TS Hg' Nv Hv Hres) as [_ X].
  intros rem e F1 F2 F3 Nr Hr.
  assert (DR : dpt res e = dpot res e).
  { apply dpt_in; [apply (zg_wf card nm _ A2)|]. apply (zg_range card nm); [exact A2|]. intros w Hw. rewrite A3 in Hw. destruct (proj2 (GC c Hc) w (Hi w Hw)) as (f & Hf & Hwf). exact (F3 f w Hf Hwf). }
  rewrite <- DR, <- (zfits_sum card nm factors G rem e F3). now apply X.
Qed.

(** Orders that stay. *)
Section Stay.
Context (reduced final : list dense) (M : made (zero_ops o) o factors ev special reduced final g0).
Notation sepf := (graph_sep o (map dvars final) (all_evidence ev special)).
Notation Live := (live (zero_ops o) good dpt o final ev special).
Definition zsteady (vs : list string) (g : cgraph dense nat) : Prop :=
  forall i c, nth_error (g_cl g) i = Some c -> incl vs (dvars (cl_fac c)) ->
    listed vs (dvars (cl_fac c)) /\ forall j T, sepf i j = Some T -> keeps T vs.
Lemma zpass_steady vs g k p g' : Live g -> ordered o ev special final g -> nth_error (g_paths g) k = Some p -> p_prev p = None ->
  pass_path (zero_ops o) g k = Ok g' -> zsteady vs g -> zsteady vs g'.
Proof.
  intros LV OD Hp Hn H St. pose proof (lv_inv _ _ _ _ _ _ _ _ LV) as IV.
  destruct (next_ok (zero_ops o) card good dpt L o final ev special Ho (zgood_final card nm o factors ev special g0 G reduced final M) g k p IV (sa_fresh _ _ _ (lv_static _ _ _ _ _ _ _ _ LV)) Hp)
    as (S & ci & cj & q & kq & HS & Ei & Ej & Hq & Q1 & Q2 & MO).
  destruct (pass_path_passed (zero_ops o) g k g' (struct_out _ _ (sa_struct _ _ _ (lv_static _ _ _ _ _ _ _ _ LV))) H) as (p' & cr & cr' & P).
  assert (p' = p) by (pose proof (pa_path _ _ _ _ _ _ _ P); congruence). subst p'.
  assert (cr = cj) by (pose proof (pa_cr _ _ _ _ _ _ _ P); congruence). subst cr.
  assert (Vn : dvars (m_fac (p_next p)) = S) by exact (od_next _ _ _ _ _ OD k p S Hp HS).
  assert (HS' : sepf (p_rcv p) (p_snd p) = Some S) by (now rewrite (sep_sym o)).
  pose proof (od_cl _ _ _ _ _ OD _ cj _ S Ej HS') as Ls.
  assert (RC : dvars (cl_fac cr') = moved S (dvars (cl_fac cj))).
  { pose proof (pa_recv _ _ _ _ _ _ _ P) as RV. unfold receive_message in RV. rewrite (mo_snd _ _ _ _ _ _ _ _ _ _ MO), (iv_recv _ _ _ _ _ _ _ _ IV k p ci cj Hp Ei Ej), Hn in RV.
    cbn [option_map zero_ops f_mul] in RV. apply bind_ok in RV. destruct RV as (u & _ & RV). apply bind_ok in RV. destruct RV as (f1 & H1 & RV). cbn [bind] in RV.
    injection RV as <-. cbn [cl_fac]. rewrite <- Vn. apply multiply_moved; [|exact H1]. now rewrite Vn. }
  intros i c Hc Hv. rewrite (pa_cl _ _ _ _ _ _ _ P i) in Hc. destruct (Nat.eq_dec i (p_rcv p)) as [->|Ni].
  - injection Hc as <-. destruct (St _ cj Ej) as (A & B).
    { intros v Hw. apply Hv in Hw. rewrite RC in Hw. now apply (moved_In _ _ v Ls). }
    split; [|exact B]. rewrite RC. apply listed_moved; [exact A|]. exact (B _ _ HS').
  - exact (St i c Hc Hv).
Qed.
Lemma zpasses_steady vs ks : forall g g', Live g -> ordered o ev special final g -> NoDup ks -> (forall k p, In k ks -> nth_error (g_paths g) k = Some p -> p_prev p = None) ->
  foldM (pass_path (zero_ops o)) ks g = Ok g' -> zsteady vs g -> zsteady vs g'.
Proof.
  induction ks as [|k ks IH]; intros g g' LV OD Nd Hn H St; cbn [foldM] in *; [injection H as <-; exact St|].
  apply bind_ok in H. destruct H as (g1 & H1 & H). inversion Nd as [|? ? N1 N2]; subst.
  destruct (pass_path_passed (zero_ops o) g k g1 (struct_out _ _ (sa_struct _ _ _ (lv_static _ _ _ _ _ _ _ _ LV))) H1) as (p & cr & cr' & P).
  pose proof (Hn k p (or_introl eq_refl) (pa_path _ _ _ _ _ _ _ P)) as Np.
  destruct (live_pass_same card nm o Ho factors ev special g0 G Hmk Hlin reduced final M g k p g1 LV OD (pa_path _ _ _ _ _ _ _ P) Np H1) as [D1 OD1].
  apply (IH g1 g'); auto.
  - exact (live_pass (zero_ops o) card good dpt L o final ev special Ho (zgood_final card nm o factors ev special g0 G reduced final M) g k g1 LV H1).
  - intros q p' Hq Hp'. destruct (pa_paths _ _ _ _ _ _ _ P q p' Hp') as (p0 & H0 & _ & _ & E & _). rewrite E.
    destruct (Nat.eq_dec q k) as [->|_]; [contradiction|]. apply (Hn q p0); [right; exact Hq|exact H0].
  - exact (zpass_steady vs g k p g1 LV OD (pa_path _ _ _ _ _ _ _ P) Np H1 St).
Qed.
End Stay.
Lemma zero_stays ks e0 g' vs : two_sweeps g0 ks ->
  agrees_opt ev e0 -> agrees special e0 -> fits card factors e0 -> (forall f, In f factors -> dpot f e0 <> 0%R) ->
  foldM (pass_path (dense_ops o)) ks g0 = Ok g' -> stays_in_order g0 vs -> answers_in_order g' vs.
Proof.
  intros TS E1 E2 E3 E4 P St. pose proof (zfits_positive card nm factors ev special G e0 E1 E2 E3 E4) as HP.
  destruct (mk_graph_made (zero_ops o) o factors ev special g0 Ho zb) as (reduced & final & M).
  destruct (history_live (zero_ops o) card good dpt L o factors ev special g0 Ho G reduced final g0 M (hi_init _ _)) as [Gfin LV].
  pose proof (sa_struct _ _ _ (lv_static _ _ _ _ _ _ _ _ LV)) as ST.
  assert (Hk : forall k, In k ks -> k < length (g_paths g0)).
  { intros k Hk. destruct TS as (r & ord & _ & _ & HF). clear - Hk HF. induction HF as [|k' e ks es He _ IH]; [destruct Hk|].
    destruct Hk as [->|Hk]; [|auto]. destruct He as (p & Hp & _). apply nth_error_Some. congruence. }
  pose proof (final_pos (zero_ops o) card good dpt L o factors ev special reduced final g0 e0 M G E1 (proj2 (proj2 HP))) as Pf.
  destruct (passes_ok (zero_ops o) card good dpt L o final ev special Ho Gfin e0 E2 Pf ks g0 LV Hk) as (g1 & Hg').
  pose proof (made_ordered card nm o Ho factors ev special g0 G Hmk Hlin reduced final M) as OD.
  pose proof (sweeps_nodup o ev special final g0 ks ST TS) as Nk.
  assert (Np : forall k p, In k ks -> nth_error (g_paths g0) k = Some p -> p_prev p = None) by (intros k p _ Hp; apply (mk_path _ _ _ _ _ _ _ _ M k p Hp)).
  assert (Eg : g1 = g').
  { assert (Q : foldM (pass_path (dense_ops o)) ks g0 = Ok g1); [|congruence].
    exact (live_passes_same card nm o Ho factors ev special g0 G Hmk Hlin reduced final M ks g0 g1 LV OD Nk Np Hg'). }
  subst g1. assert (S1 : zsteady final vs g').
  { apply (zpasses_steady reduced final M vs ks g0 g' LV OD Nk Np Hg'). intros i c Hc Hv. destruct (St i c Hc Hv) as (A & B). split; [exact A|].
    intros j T HT. apply (B j T). exact (proj2 (edge_with_sep _ g0 i j T ST) HT). }
  intros c Hc Hv. apply In_nth_error in Hc. destruct Hc as (i & Hi). exact (proj1 (S1 i c Hi Hv)).
Qed.
End Zero.

Lemma zr_asked o : oracle_ok o -> exists g ks g' res, mk_graph (dense_ops o) o zr None [] = Ok g /\ lined g /\ tree_shaped g /\ stays_in_order g ["a"; "b"] /\
  two_sweeps g ks /\ foldM (pass_path (dense_ops o)) ks g = Ok g' /\ answers_in_order g' ["a"; "b"] /\
  get_marginal (dense_ops o) g' ["a"; "b"] = Ok res /\ dpot res (fun _ => 0) = 2%R /\ dpot res zr_env = 0%R.
Proof.
  intros Ho. destruct (zr_swept o Ho) as (g & ks & g' & r0 & Hg & Lin & TR & TS & _ & Hp & _).
  assert (F : fits dx_card zr (fun _ => 0)) by (intros f w _ _; pose proof (dx_two w); lia).
  assert (P : forall f, In f zr -> dpot f (fun _ => 0) <> 0%R) by (intros f [<-|[<-|[]]]; unfold dpot, dval; cbn; rewrite exp_0; lra).
  assert (A : agrees_opt (@None (dict string nat)) (fun _ => 0)) by exact I.
  assert (B : agrees (@nil (string * nat)) (fun _ => 0)) by (intros v x H; discriminate).
  assert (St : stays_in_order g ["a"; "b"] /\ exists c, In c (g_cl g) /\ incl ["a"; "b"] (dvars (cl_fac c))).
  { unfold zr in Hg. rewrite (ln_graph o dx_card zr_ab zr_bc Ho) in Hg. apply bind_ok in Hg. destruct Hg as (p1 & _ & Hg). apply bind_ok in Hg. destruct Hg as (p2 & _ & Hg).
    injection Hg as <-. split; [|eexists; split; [left; reflexivity|intros v Hv; exact Hv]].
    intros i c Hc Hv. destruct i as [|[|i]]; cbn in Hc; [|exfalso|destruct i; discriminate].
    - injection Hc as <-. split; [reflexivity|]. intros j T (k & q & ci & cj & _ & _ & _ & Hi & Hj & HT). cbn in Hi. injection Hi as <-.
      destruct j as [|[|j]]; cbn in Hj; [| |destruct j; discriminate]; injection Hj as <-; cbn in HT; [discriminate|injection HT as <-; reflexivity].
    - injection Hc as <-. destruct (Hv "a" (or_introl eq_refl)) as [C|[C|[]]]; discriminate C. }
  destruct St as (St & Hc). pose proof (zero_stays dx_card dx_nm o Ho zr None [] g zr_good Hg Lin ks (fun _ => 0) g' ["a"; "b"] TS A B F P Hp St) as Or.
  destruct (zero_queries dx_card dx_nm o Ho zr None [] g zr_good Hg Lin ks (fun _ => 0) g' TR TS A B F P Hp ["a"; "b"] Or ltac:(intros v _ []) Hc) as (res & R1 & _ & R3).
  exists g, ks, g', res. do 8 (split; [assumption|]).
  assert (Hr : forall w, In w ["c"] <-> (exists f, In f zr /\ In w (dvars f)) /\ ~ In w (observed (@None (dict string nat))) /\ ~ In w (dkeys (@nil (string * nat))) /\ ~ In w ["a"; "b"]).
  { intros w. split.
    - intros [<-|[]]; (split; [|split; [intros []|split; [intros []|intros [C|[C|[]]]; discriminate C]]]).
      eexists. split; [right; left; reflexivity|]. right; left; reflexivity.
    - intros ((f & [<-|[<-|[]]] & Hw) & _ & _ & N); cbn in Hw, N |- *; tauto. }
  assert (Nr : NoDup ["c"]) by nodups.
  split.
  - rewrite (R3 ["c"] (fun _ => 0) A B F Nr Hr). cbn. unfold dpot, dval. cbn. rewrite !exp_0. lra.
  - rewrite (R3 ["c"] zr_env A); [| |intros f w _ _; unfold zr_env, dx_card; destruct (string_dec w "b"); lia|exact Nr|exact Hr].
    + cbn. unfold dpot, dval. cbn. lra.
    + intros v x H; discriminate.
Qed.
