(** Copies of factors of all classes. *)
From Coq Require Import String List Reals.
Import ListNotations.
From Verif Require Export OperFacts NlgOps FactFacts DisplayFacts MixFacts.
From Verif Require Import MixExamples NlgExamples3 SparseExamples DenseExamples GaussExamples BaseFacts.
Local Open Scope string_scope.
Local Open Scope list_scope.

Lemma sparse_copy f : wf_struct f -> s_copy f = Ok f.
Proof. exact (s_copy_ok f). Qed.
Lemma dense_copy f : wf_dense f -> exists c, d_copy f = Ok c /\ wf_dense c /\ dvars c = dvars f /\ dtens c = dtens f /\
  (forall v, In v (dvars f) -> dget (dnames c) v = dget (dnames f) v) /\ forall e, dval c e = dval f e.
Proof.
  intros W. destruct (d_copy_same f W) as (g & E & Wg & V & T & _ & D). exists g. do 4 (split; [assumption|]). split; [|exact D].
  rewrite (d_copy_ok f (wd_s _ W)) in E. injection E as <-. intros v Hv. unfold mkd. cbn [dnames].
  rewrite (dname_get f v (wd_s _ W) Hv). apply In_dget.
  - rewrite dkeys_combine by apply map_length. apply (ws_vars f (wd_s _ W)).
  - apply combine_map_In'. auto.
Qed.
Lemma gauss_copy f : wf_gauss f -> exists c, g_copy f = Ok c /\ wf_gauss c /\ ga_vars c = ga_vars f /\ ga_can c = ga_can f /\ ga_cov c = ga_cov f /\
  ga_vac c = match ga_cov f, ga_can f with None, Some (K, _, _) => prec_vacuous K | _, _ => false end /\ forall e, lp c e = lp f e.
Proof.
  intros W. destruct (copy_full f W) as (c & E & V & A & B & Wc & F). exists c. do 6 (split; [assumption|]).
  intros e. apply same_obj_lp'. now split.
Qed.
Lemma same_obj_trans a b c : same_obj a b -> same_obj b c -> same_obj a c.
Proof. intros (_ & A1 & A2 & A3) (W & B1 & B2 & B3). split; [exact W|]. repeat split; congruence. Qed.
Lemma F2_trans {A} (P : A -> A -> Prop) (T : forall a b c, P a b -> P b c -> P a c) l1 : forall l2 l3, Forall2 P l1 l2 -> Forall2 P l2 l3 -> Forall2 P l1 l3.
Proof. induction l1 as [|x l1 IH]; intros l2 l3 H1 H2; inversion H1; subst; inversion H2; subst; constructor; eauto. Qed.
Lemma mix_copy_spec a : wf_mix a -> exists c, mix_copy a = Ok c /\ wf_mix c /\ gm_vars c = gm_vars a /\
  Forall2 (fun x y => ga_vars y = ga_vars x /\ ga_can y = ga_can x /\ ga_cov y = ga_cov x) (gm_comps a) (gm_comps c) /\
  forall e, mixpot c e = mixpot a e /\ mixlp c e = mixlp a e.
Proof.
  intros W. pose proof W as (Hn & H). destruct (mapM_copy (gm_comps a)) as (cs & E & F); [intros f Hf; apply (H f Hf)|].
  destruct (mk_mix_ok cs (gm_vars a)) as (r & Er & Vr & Wr & Fr).
  - intros ->. inversion F as [K|]. congruence.
  - intros f Hf. destruct (F2_in_r _ _ _ f F Hf) as (x & Hx & (Wf & Vf & _)). split; [exact Wf|]. rewrite Vf. apply (H x Hx).
  - exists r. unfold mix_copy. rewrite E. cbn [bind]. split; [exact Er|]. split; [exact Wr|]. split; [exact Vr|].
    pose proof (F2_trans _ same_obj_trans _ _ _ F Fr) as FF. split.
    + clear - FF. induction FF as [|x y l m (W & V & C & D) FF IH]; constructor; auto.
    + intros e. destruct (wf_mix_lps a e W) as (ls & L & _ & P1 & P2). destruct (wf_mix_lps r e Wr) as (ms & M & _ & Q1 & Q2).
      pose proof (F2_lp_comp _ _ e ls FF L) as L'.
      assert (ms = ls) as ->.
      { clear - L' M. revert ms M. induction L' as [|c l cs ls Hc L' IH]; intros ms M; inversion M; subst; [reflexivity|]. f_equal; [congruence|]. now apply IH. }
      now rewrite P1, P2, Q1, Q2.
Qed.
Lemma fg_copy_spec o a : oracle_ok o -> (forall f, In f (fg_factors a) -> wf_gauss f) -> exists c, fg_copy o a = Ok c /\
  Forall2 (fun x y => ga_vars y = ga_vars x /\ ga_can y = ga_can x /\ ga_cov y = ga_cov x /\ forall e, lp y e = lp x e) (fg_factors a) (fg_factors c) /\
  NoDup (fg_vars c) /\ forall v, In v (fg_vars c) <-> exists f, In f (fg_factors a) /\ In v (ga_vars f).
Proof.
  intros Ho H. destruct (fg_copy_ok o a Ho H) as (c & E & F & (N & S)). exists c. split; [exact E|]. split; [|split; [exact N|]].
  - clear - F. induction F as [|x y l m So F IH]; constructor; auto. pose proof So as (W & V & C & D). repeat split; auto. intros e. now apply same_obj_lp'.
  - intros v. rewrite S. unfold in_scope. clear - F. split.
    + intros (f & Hf & Hv). destruct (F2_in_r _ _ _ f F Hf) as (x & Hx & (_ & V & _)). exists x. split; [exact Hx|congruence].
    + intros (f & Hf & Hv). destruct (F2_in_l _ _ _ f F Hf) as (x & Hx & (_ & V & _)). exists x. split; [exact Hx|congruence].
Qed.
Definition opt_params (a b : option gauss) : Prop :=
  match a, b with
  | None, None => True
  | Some x, Some y => ga_vars y = ga_vars x /\ ga_can y = ga_can x /\ ga_cov y = ga_cov x
  | _, _ => False
  end.
Lemma nl_copy_full f : nl_wf f -> exists c, nl_copy f = Ok c /\ nl_wf c /\ nl_cing c = nl_cing f /\ nl_cal c = nl_cal f /\ nl_T c = nl_T f /\ nl_Q c = nl_Q f /\
  nl_w c = nl_w f /\ nl_ev c = nl_ev f /\ (forall e, lp (nl_joint c) e = lp (nl_joint f) e) /\ opt_params (nl_upd f) (nl_upd c) /\ opt_params (nl_cond f) (nl_cond c).
Proof.
  intros W. destruct (nl_copy_spec f W) as (d & E & Cd). exists d. split; [exact E|]. split; [exact (nl_wf_copy f d W Cd)|].
  destruct Cd as ((A1 & A2 & A3 & A4 & A5) & A6 & A7 & A8 & A9). do 6 (split; [assumption|]). split; [intros e; now apply same_obj_lp'|].
  assert (K : forall x y, opt_same x y -> opt_params x y).
  { intros [x|] [y|]; cbn; try tauto. intros ((_ & V & C & D) & _). now repeat split. }
  split; now apply K.
Qed.
Lemma copy_ex : wf_struct SparseExamples.ex_ab /\ wf_dense ed_ab /\ wf_gauss GaussExamples.ex_ab /\ wf_mix mix_ab /\ (exists o, oracle_ok o) /\
  exists f c u, mk_nlg ["x1"; "x2"] ["y"] exT (meye 1) (Fin 2) None (Some u) (Some c) [] = Ok f /\ nl_wf f.
Proof.
  split; [apply SparseExamples.ex_ab_wf|]. split; [exact ed_ab_wf|]. split; [exact GaussExamples.wf_ab|]. split; [exact mix_ab_wf|].
  split; [exact (ex_intro _ SparseExamples.id_oracle SparseExamples.id_oracle_ok)|].
  destruct no_info_instance as (f & c & u & E & W & _). now exists f, c, u.
Qed.
