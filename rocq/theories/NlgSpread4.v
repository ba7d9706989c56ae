(** After two messages over every edge, further messages change nothing. *)
From Verif Require Export NlgSpread3.
Local Open Scope string_scope.
Local Open Scope list_scope.
Local Open Scope R_scope.

(** A second message from a cluster that depends on a factor, which says what the first one said. *)
Theorem repeat_up o x S b b' : oracle_ok o -> nready x -> takes x S -> S <> [] -> ggood false b -> ggood false b' -> (forall v, In v (ga_vars b) <-> In v S) -> (forall v, In v (ga_vars b') <-> In v S) ->
  (forall e, gval b' e = gval b e) -> ga_vac b' = ga_vac b ->
  exists z1 z, nf_mul o x (FG b') = Ok z1 /\ nf_cancel o z1 (FG b) = Ok z /\ nready z /\ nkind x z /\ (forall a, heard x a -> heard z a) /\ forall e, npot z e = npot x e.
Proof.
  intros Ho R T NE Gb Gb' Vb Vb' Lb Fb. pose proof Gb' as (Wb' & _ & Pb' & _). pose proof Gb as (Wb & _ & Pb & _).
  destruct x as [g|f]; cbn [nready takes nf_mul nkind npot heard] in *.
  - destruct R as (Sg & Pg). destruct (solid_proper g Sg Pg) as (Gg & _).
    destruct (gmul_law false g b' (ggood_weak true g Gg) Gb') as (r & Er & Gr & Vr & Lr).
    assert (VV : forall v, In v (ga_vars r) <-> In v (ga_vars g)) by (intros v; rewrite Vr, Vb'; split; [intros [H|H]; [exact H|now apply T]|now left]).
    destruct (div_definite r b (gval g) Gr Gb) as (q & Eq & Sq & Pq & Vq & Lq).
    { exists g. split; [exact Gg|]. split; [intros v; now rewrite VV|reflexivity]. } { intros v Hv. now apply VV, T, Vb. } { intros e. now rewrite Lr, Lb. }
    rewrite Er. cbn [bind]. exists (FG r), (FG q). split; [reflexivity|]. cbn [nf_cancel]. rewrite Eq. cbn [bind]. split; [reflexivity|]. split; [now split|]. split; [intros v; now rewrite Vq, VV|]. split; [auto|exact Lq].
  - destruct T as (IS & DS). pose proof R as (A & bb & c & w & Wf & OK & Ew & Ec & IN & Pc & Gu). destruct (ga_vac b) eqn:Va.
    + destruct (nl_multiply_vac f b' Wf Fb) as (r & Er & CD). rewrite Er. cbn [bind]. pose proof (nl_wf_copy f r Wf CD) as Wr. destruct (nl_copy_spec r Wr) as (d & Ed & CD2).
      exists (FN r), (FN d). split; [reflexivity|]. cbn [nf_cancel]. unfold nl_divide_gauss. rewrite Ed. cbn [bind]. rewrite Va. cbn [bind]. split; [reflexivity|].
      split; [apply (ready_copy r); [now apply (ready_copy f)|exact CD2]|]. pose proof CD as ((K1 & K2 & K3 & K4 & K5) & K6 & _ & _ & K9). pose proof CD2 as ((M1 & M2 & M3 & M4 & M5) & M6 & _ & _ & M9).
      split; [split; [repeat split; congruence|congruence]|]. split; [|intros e; cbn [npot]; now rewrite (pot_copy r d e CD2), (pot_copy f r e CD)].
      intros a (c0 & Ec0 & Vc0 & Lc0). unfold opt_same in *. rewrite Ec0 in K9. destruct (nl_cond r) as [c1|]; [|contradiction]. destruct (nl_cond d) as [c2|] eqn:Ec2; [|contradiction].
      destruct K9 as (SO & _), M9 as (SO2 & _). exists c2. split; [exact Ec2|]. pose proof SO as (_ & Y1 & _). pose proof SO2 as (_ & Y2 & _). split; [intros v; now rewrite Y2, Y1|].
      intros e. rewrite <- Lc0. unfold gval. now rewrite (same_obj_lp' c1 c2 e SO2), (same_obj_lp' c0 c1 e SO).
    + assert (Im : incl (ga_vars b') (nl_cal f)) by (intros v Hv; apply IS, Vb', Hv).
      destruct (nl_multiply_cal f b' Wf Wb' Fb Im) as (r & Er & Wr & SK & K6 & KC & OKr & Lr). pose proof SK as (K1 & K2 & K3 & K4 & K5). pose proof Er as E0.
      rewrite Er. cbn [bind]. exists (FN r). cbn [nf_cancel].
      assert (UU : exists u, nl_upd r = Some u /\ ggood false u /\ incl (ga_vars b') (ga_vars u) /\ gf (ga_vars u) (optval (nl_upd f)) /\ forall e, gval u e = optval (nl_upd f) e * gval b' e).
      { unfold nl_multiply_gauss in E0. destruct (nl_copy_spec f Wf) as (d & Ed & CD). rewrite Ed in E0. cbn [bind] in E0. pose proof CD as (SKd & _ & _ & K8 & _). pose proof SKd as (_ & L2 & _).
        rewrite Fb, L2, (proj2 (subsetb_incl _ _) Im) in E0. apply bind_ok in E0. destruct E0 as (u & Eu & E0). injection E0 as <-. exists u. split; [reflexivity|].
        unfold opt_same, optgood, optval in *. destruct (nl_upd f) as [u0|], (nl_upd d) as [u1|]; try contradiction.
        - destruct K8 as (SO & _). pose proof (ggood_same false u0 u1 SO Gu) as G1. destruct (gmul_law false u1 b' G1 Gb') as (u' & Eu' & Gu' & Vu' & Lu'). rewrite Eu in Eu'. injection Eu' as <-.
          assert (L1 : forall e, gval u1 e = gval u0 e) by (intros e; unfold gval; now rewrite (same_obj_lp' u0 u1 e SO)).
          split; [exact Gu'|]. split; [intros v Hv; apply Vu'; now right|]. split; [|intros e; now rewrite Lu', L1].
          apply (gf_sub (ga_vars u1)); [exists u1; split; [exact G1|split; [reflexivity|exact L1]]|]. intros v Hv. apply Vu'. now left.
        - destruct (same_obj_copy b' Wb') as (u' & Eu' & SO & _). rewrite Eu in Eu'. injection Eu' as <-. split; [now apply (ggood_same false b')|]. destruct SO as (X1 & X2 & X3 & X4). split; [rewrite X2; apply incl_refl|].
          split; [apply gf_const; lra|]. intros e. unfold gval at 1. rewrite (same_obj_lp' b' u e (conj X1 (conj X2 (conj X3 X4)))). unfold gval. lra. }
      destruct UU as (u & Eu & Gu' & Iu & (d0 & Gd0 & Vd0 & Ld0) & Lu).
      destruct (nl_copy_spec r Wr) as (d & Ed & CD). pose proof (nl_wf_copy r d Wr CD) as Wd. pose proof CD as (SKd & L6 & L7 & L8 & L9). pose proof SKd as (L1 & L2 & L3 & L4 & L5).
      unfold opt_same in L8. rewrite Eu in L8. destruct (nl_upd d) as [u1|] eqn:Eu1; [|contradiction]. destruct L8 as (SO1 & _). pose proof (ggood_same false u u1 SO1 Gu') as G1. pose proof SO1 as (_ & V1 & _).
      destruct (gdiv_law false u1 b d0 G1 Gb Gd0) as (q & Eq & Gq & Vq & Lq); [intros v; now rewrite Vd0, V1| | |].
      { rewrite V1. intros v Hv. now apply Iu, Vb', Vb. } { intros e. unfold gval at 1. rewrite (same_obj_lp' u u1 e SO1). fold (gval u e). now rewrite Lu, Ld0, Lb. }
      pose proof (nl_ok_copy r d A bb (OKr A bb (proj1 (proj2 Gb')) OK) CD) as OKd.
      assert (Ib : incl (ga_vars b) (nl_cal r)) by (rewrite K2; intros v Hv; now apply IS, Vb).
      unfold opt_same in KC, L9. rewrite Ec in KC. destruct (nl_cond r) as [c1|] eqn:Ec1; [|contradiction]. destruct (nl_cond d) as [c2|] eqn:Ec2; [|contradiction]. destruct KC as (SOc & HSc), L9 as (SOd & HSd).
      pose proof IN as (Sc & Ic & Ha & Hn). pose proof SOc as (_ & Y1 & _). pose proof SOd as (_ & Y2 & _).
      assert (Gc : forall e, gval c2 e = gval c e) by (intros e; unfold gval; now rewrite (same_obj_lp' c1 c2 e SOd), (same_obj_lp' c c1 e SOc)).
      assert (INq : informed (set_upd d q) c2).
      { split; [now apply HSd, HSc|]. cbn [set_upd nl_cing nl_ev]. rewrite L1, K1, L6, K6, Y2, Y1. now repeat split. }
      assert (OKq : nl_ok (set_upd d q) A bb).
      { pose proof OKd as (O1 & O2 & O3 & O4 & O5 & O6 & O7 & O8). do 7 (split; [assumption|]). unfold upd_ok in *. cbn [set_upd nl_upd nl_cal]. rewrite Eu1 in O8. destruct O8 as (_ & _ & O8).
        split; [apply Gq|]. split; [apply Gq|]. intros v Hv. apply O8. now apply Vq. }
      destruct (nl_recompute_spec o (set_upd d q) A bb c2 Ho OKq Ec2 INq) as (jr & Ejr & Wjr & _).
      exists (FN (set_joint (set_upd d q) jr)). split; [reflexivity|]. unfold nl_divide_gauss. rewrite Ed. cbn [bind]. rewrite Va, L2, (proj2 (subsetb_incl _ _) Ib), Eu1, Eq. cbn [bind]. rewrite Ejr. cbn [bind]. split; [reflexivity|].
      assert (SKf : same_kind f (set_joint (set_upd d q) jr)) by (repeat split; cbn; congruence).
      split; [|split; [split; [exact SKf|cbn; congruence]|split]].
      * exists A, bb, c2, w. split; [|split; [exact OKq|split; [cbn; congruence|split; [exact Ec2|split; [exact INq|split; [intros e; rewrite Gc; apply Pc|exact Gq]]]]]].
        destruct Wd as (W1 & W2 & W3 & W4 & W5 & W6). do 3 (split; [assumption|]). split; [exact Wjr|]. split; [|exact W6]. intros u0 E1. cbn in E1. injection E1 as <-. apply Gq.
      * intros a (c0 & Ec0 & Vc0 & Lc0). rewrite Ec in Ec0. injection Ec0 as <-. exists c2. split; [exact Ec2|]. split; [intros v; now rewrite Y2, Y1|]. intros e. now rewrite Gc.
      * intros e. cbn [npot]. unfold nl_pot. rewrite (density_kind f _ _ SKf). cbn [set_joint set_upd nl_ev nl_cond nl_upd optval]. rewrite L6, K6, Ec2, Ec. cbn [optval]. now rewrite Gc, Lq, Ld0.
Qed.
