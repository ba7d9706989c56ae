(** Operations of factorised dense tables which always fail. *)
From Coq Require Import ZArith Lia Lra.
From Verif Require Export FactTabFacts.
From Verif Require Import DenseProofs DenseProofs2 BaseFacts GraphProd GaussModel.
Local Open Scope nat_scope.
Local Open Scope list_scope.

Theorem ft_vacuous_fails a : ft_factors a <> [] -> ft_is_vacuous a = Err AttributeError.
Proof. intros N. unfold ft_is_vacuous. destruct (ft_factors a); [congruence|reflexivity]. Qed.
Theorem ft_marginalize_fails o a vrs keep r : ft_marginalize o a vrs keep <> Ok r.
Proof.
  unfold ft_marginalize. destruct (raise_if _ _); [|discriminate]. cbn [bind].
  destruct (ft_copy o a) as [c|]; [|discriminate]. cbn [bind].
  destruct (ft_merge_shared _ _); [|discriminate]. cbn [bind].
  destruct (foldM _ _ _) as [[|m ms]|]; discriminate.
Qed.
(** Nothing to keep. *)
Theorem ft_marginalize_nothing o a vrs keep : (forall f v, In f (ft_factors a) -> In v (d_marginal_vars o (ft_vars a) vrs keep) -> ~ In v (dvars f)) ->
  ft_marginalize o a vrs keep = Err PyException.
Proof.
  intros H. unfold ft_marginalize. assert (existsb (fun f => overlap (d_marginal_vars o (ft_vars a) vrs keep) (dvars f)) (ft_factors a) = false) as ->; [|reflexivity].
  destruct (existsb _ _) eqn:E; [|reflexivity]. exfalso. apply existsb_exists in E. destruct E as (f & Hf & E). unfold overlap in E.
  destruct (set_inter (d_marginal_vars o (ft_vars a) vrs keep) (dvars f)) as [|v l] eqn:EI; [discriminate|].
  assert (Hv : In v (set_inter (d_marginal_vars o (ft_vars a) vrs keep) (dvars f))) by (rewrite EI; now left).
  apply In_set_inter in Hv. destruct Hv as [H1 H2]. exact (H f v Hf H1 H2).
Qed.
Section Tab.
Context (card : string -> nat) (nm : string -> list aname).
Notation tb := (tab card nm).
Theorem ft_reduce_fails a vrs values : ft_factors a <> [] -> (forall f, In f (ft_factors a) -> tb f) -> NoDup vrs -> length values = length vrs ->
  (forall v z, In (v, z) (combine vrs values) -> (0 <= z < Z.of_nat (card v))%Z) -> ft_reduce a vrs values = Err AttributeError.
Proof.
  intros N T Hn HL HR. unfold ft_reduce.
  assert (X : forall fs acc, (forall f, In f fs -> tb f) -> foldM (ft_reduce_step vrs values) fs acc = Err AttributeError \/
     exists rs, foldM (ft_reduce_step vrs values) fs acc = Ok rs /\ length rs = length acc + length fs).
  { induction fs as [|f fs IH]; intros acc Tf; [right; exists acc; split; [reflexivity|cbn; lia]|].
    assert (S1 : ft_reduce_step vrs values acc f = Err AttributeError \/ exists rs, ft_reduce_step vrs values acc f = Ok rs /\ length rs = S (length acc)).
    { assert (Tf0 : tb f) by (apply Tf; now left). unfold ft_reduce_step. destruct (seteqb vrs (dvars f)); [now left|]. right. destruct (overlap vrs (dvars f)).
      - destruct (subset_evidence (dict_of (combine vrs values)) (dvars f)) as [vs xs] eqn:E.
        assert (Hk : NoDup (dkeys (combine vrs values))) by (rewrite dkeys_combine by auto; exact Hn).
        rewrite (dict_of_NoDup _ Hk) in E.
        pose proof (ws_vars f (tb_wf _ _ _ Tf0)) as Nf.
        destruct (subset_evidence_spec _ _ _ _ Nf E) as (E1 & E2 & E3).
        destruct (d_reduce_spec f vs xs (tb_wf _ _ _ Tf0) E1 E3) as (r & Er & _).
        { intros v z c Hvz Hc. rewrite (tb_card _ _ _ Tf0 v c Hc). apply HR.
          rewrite subset_evidence_eq in E by exact Nf. inversion E; subst vs xs. clear -Hvz.
          induction (dvars f) as [|w l IH]; [destruct Hvz|]. cbn [filter flat_map] in Hvz. unfold dmem at 1 in Hvz.
          destruct (dget (combine vrs values) w) as [x|] eqn:G; cbn [app] in Hvz.
          - cbn [combine] in Hvz. destruct Hvz as [Q|Q]; [inversion Q; subst; now apply dget_In|auto].
          - auto. }
        rewrite Er. cbn [bind]. eexists. split; [reflexivity|]. rewrite app_length. cbn. lia.
      - rewrite (copy_cp card nm f Tf0). cbn [bind]. eexists. split; [reflexivity|]. rewrite app_length. cbn. lia. }
    cbn [foldM]. destruct S1 as [->|(rs & -> & L)]; [now left|]. cbn [bind].
    destruct (IH rs) as [->|(rs' & -> & L')]; [intros g Hg; apply Tf; now right|now left|].
    right. exists rs'. split; [reflexivity|]. cbn [length]. lia. }
  destruct (X (ft_factors a) [] T) as [->|(rs & -> & L)]; [reflexivity|]. cbn [bind].
  destruct rs as [|r rs]; [|reflexivity]. destruct (ft_factors a); [congruence|discriminate].
Qed.
End Tab.
(** How far the factor removed by a division is from the divisor. *)
Lemma tclose_bound card nm g f e : tab card nm g -> tab card nm f -> tclose g f -> d_in_range g e ->
  (dpot f e = 0 /\ dpot g e = 0)%R \/
  (0 < dpot f e /\ exists d, Rabs d <= (1 + Rabs (ln (dpot f e))) / 10000 /\ dpot g e = dpot f e * exp d)%R.
Proof.
  intros Tg Tf [HV HC] He. specialize (HC e He). pose proof (wd_vals g (tb_wf _ _ _ Tg) e He) as Lg.
  assert (Hf : d_in_range f e). { apply (tb_range card nm f e Tf). intros v Hv. apply (proj1 (tb_range card nm g e Tg) He). now apply HV. }
  pose proof (wd_vals f (tb_wf _ _ _ Tf) e Hf) as Lf. unfold dpot.
  destruct (dval g e) as [|x| |], (dval f e) as [|y| |]; cbn in *; try contradiction; try discriminate.
  - left. split; reflexivity.
  - right. split; [apply exp_pos|]. exists (x - y)%R. rewrite ln_exp. split.
    + unfold Rle_b in HC. destruct (Rle_dec _ _) as [HR|]; [|discriminate]. unfold default_tol in HR. lra.
    + rewrite <- exp_plus. f_equal. ring.
Qed.
Theorem ft_multiply_joint card nm o a f : ft_factors a <> [] -> (forall g, In g (ft_factors a) -> tab card nm g) -> tab card nm f ->
  exists r j jr, ft_multiply o a f = Ok r /\ ft_joint a = Ok j /\ ft_joint r = Ok jr /\
    (forall v, In v (dvars jr) <-> In v (dvars j) \/ In v (dvars f)) /\
    (forall e, d_in_range jr e <-> d_in_range j e /\ d_in_range f e) /\
    (forall e, d_in_range jr e -> dpot jr e = (dpot j e * dpot f e)%R).
Proof.
  intros N T Tf. destruct (ft_multiply_spec card nm o a f T Tf) as (r & Er & Tr & Nr & _ & Sr & Rr & Pr).
  destruct (ft_joint_spec card nm a N T) as (j & Ej & Tj & Vj & Rj & Pj).
  destruct (ft_joint_spec card nm r Nr Tr) as (jr & Ejr & Tjr & Vjr & Rjr & Pjr).
  exists r, j, jr. split; [exact Er|]. split; [exact Ej|]. split; [exact Ejr|]. split; [|split].
  - intros v. rewrite Vjr, Sr, Vj. reflexivity.
  - intros e. rewrite Rjr, Rr, Rj. reflexivity.
  - intros e He. rewrite (Pjr e He). apply Rjr in He. rewrite (Pr e He). apply Rr in He. rewrite (Pj e) by (apply Rj; tauto). reflexivity.
Qed.
Theorem mk_ft_joint card nm o fs : oracle_ok o -> fs <> [] -> (forall g, In g fs -> tab card nm g) ->
  exists a j, mk_ft o fs = Ok a /\ ft_joint a = Ok j /\ NoDup (ft_vars a) /\ (forall v, In v (ft_vars a) <-> tscope fs v) /\
    (forall v, In v (dvars j) <-> tscope fs v) /\ (forall e, d_in_range j e <-> trange fs e) /\ (forall e, trange fs e -> dpot j e = tprod fs e).
Proof.
  intros Ho N T. rewrite (mk_ft_ok card nm o fs T). eexists.
  destruct (ft_joint_spec card nm {| ft_vars := so o (dedup (concat (map dvars fs))); ft_factors := map cp fs |}) as (j & Ej & Tj & Vj & Rj & Pj);
    [cbn [ft_factors]; now destruct fs|apply cps_all, T|]. cbn [ft_factors] in *.
  exists j. split; [reflexivity|]. split; [exact Ej|]. cbn [ft_vars]. split; [apply so_NoDup; [exact Ho|apply NoDup_dedup]|]. split; [|split; [|split]].
  - intros v. rewrite so_In by (auto; apply NoDup_dedup). rewrite In_dedup. apply tscope_concat.
  - intros v. rewrite Vj. apply cps_scope.
  - intros e. rewrite Rj. apply cps_range.
  - intros e He. rewrite <- cps_prod. apply Pj, Rj, cps_range, He.
Qed.
Theorem ft_divide_joint card nm o a f : (forall g, In g (ft_factors a) -> tab card nm g) -> tab card nm f -> (forall e, d_in_range f e -> dpot f e <> 0%R) ->
  (length (ft_factors a) <= 1 \/ forall g, In g (ft_factors a) -> ~ tclose g f) ->
  (exists g, In g (ft_factors a) /\ incl (dvars f) (dvars g)) ->
  exists r j jr, ft_divide o a f = Ok r /\ ft_joint a = Ok j /\ ft_joint r = Ok jr /\
    (forall v, In v (dvars jr) <-> In v (dvars j)) /\ (forall e, d_in_range jr e <-> d_in_range j e) /\
    (forall e, d_in_range j e -> dpot jr e = (dpot j e / dpot f e)%R).
Proof.
  intros T Tf Hz HN HC. destruct (ft_divide_quotient card nm o a f T Tf Hz HN HC) as (r & Er & Tr & Lr & Sr & Rr & Pr).
  assert (N : ft_factors a <> []) by (destruct HC as (g & Hg & _); intros E; rewrite E in Hg; destruct Hg).
  destruct (ft_joint_spec card nm a N T) as (j & Ej & Tj & Vj & Rj & Pj).
  assert (Nr : ft_factors r <> []) by (intros E; rewrite E in Lr; apply N; now apply length_zero_iff_nil).
  destruct (ft_joint_spec card nm r Nr Tr) as (jr & Ejr & Tjr & Vjr & Rjr & Pjr).
  exists r, j, jr. split; [exact Er|]. split; [exact Ej|]. split; [exact Ejr|]. split; [|split].
  - intros v. rewrite Vjr, Sr, Vj. reflexivity.
  - intros e. rewrite Rjr, Rr, Rj. reflexivity.
  - intros e He. rewrite (Pj e He). apply Rj in He. rewrite <- (Pr e He). apply Pjr, Rjr, Rr, He.
Qed.
Theorem ft_divide_near card nm o a f l1 g l2 : (forall g, In g (ft_factors a) -> tab card nm g) -> tab card nm f ->
  ft_factors a = l1 ++ g :: l2 -> 1 < length (ft_factors a) -> (forall h, In h l1 -> ~ tclose h f) -> tclose g f ->
  exists r j jr, ft_divide o a f = Ok r /\ ft_joint a = Ok j /\ ft_joint r = Ok jr /\ (forall v, In v (dvars jr) <-> tscope (l1 ++ l2) v) /\
    forall e, d_in_range j e -> (dpot f e = 0 /\ dpot j e = 0)%R \/
      (0 < dpot f e /\ exists d, Rabs d <= (1 + Rabs (ln (dpot f e))) / 10000 /\ dpot j e = dpot jr e * dpot f e * exp d)%R.
Proof.
  intros T Tf EF HL HN Hg. destruct (ft_divide_removal card nm o a f l1 g l2 T Tf EF HL HN Hg) as (r & Er & Tr & Lr & Sr & Pr).
  assert (N : ft_factors a <> []) by (intros E; rewrite E in HL; cbn in HL; lia).
  destruct (ft_joint_spec card nm a N T) as (j & Ej & Tj & Vj & Rj & Pj).
  assert (Nr : ft_factors r <> []).
  { intros E. rewrite E in Lr. rewrite EF, app_length in HL. rewrite app_length in Lr. cbn [length] in *. lia. }
    destruct (ft_joint_spec card nm r Nr Tr) as (jr & Ejr & Tjr & Vjr & Rjr & Pjr).
    exists r, j, jr. split; [exact Er|]. split; [exact Ej|]. split; [exact Ejr|]. split; [intros v; rewrite Vjr; apply Sr|].
    intros e He. assert (Hr : d_in_range jr e).
    { apply (tb_range card nm jr e Tjr). intros v Hv. apply (proj1 (tb_range card nm j e Tj) He). apply Vj. rewrite EF.
      apply Vjr, Sr in Hv. rewrite tscope_app in Hv |- *. rewrite tscope_cons. tauto. }
    rewrite (Pj e He), Pr, <- (Pjr e Hr).
    assert (Tg : tab card nm g) by (apply T; rewrite EF; apply in_elt).
    assert (Hge : d_in_range g e) by (apply Rj in He; apply He; rewrite EF; apply in_elt).
    destruct (tclose_bound card nm g f e Tg Tf Hg Hge) as [[A B]|(A & d & B & C)].
    + left. split; [exact A|]. rewrite B. ring.
    + right. split; [exact A|]. exists d. split; [exact B|]. rewrite C. ring.
Qed.
