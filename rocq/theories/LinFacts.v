(** The joint Gaussian of a vector and its noisy affine image. *)
From Verif Require Export LinModel MxLinear IntKL2 SigmaJoint.
#[global] Set Bullet Behavior "Strict Subproofs".
Local Open Scope R_scope.

(** The mean A x + b of the image when the variables [xs] have the values given by [e]. *)
Definition lin_mean (A b : mat) (xs : list string) (e : string -> R) : mat :=
  Mat (nr A) 1 (fun i _ => rsum (length xs) (fun l => ent A i l * e (nth l xs ""%string)) + ent b i 0).
Definition mean_blocks (n p : nat) (A b m mJ : mat) : Prop :=
  nr mJ = (n + p)%nat /\ nc mJ = 1%nat /\ (forall i, (i < n)%nat -> ent mJ i 0 = ent m i 0) /\
  (forall i, (i < p)%nat -> ent mJ (n + i)%nat 0 = rsum n (fun l => ent A i l * ent m l 0) + ent b i 0).

Lemma nth_map_d (e : string -> R) l i : (i < length l)%nat -> nth i (map e l) 0 = e (nth i l ""%string).
Proof. revert i. induction l as [|a l IH]; intros [|i] H; cbn in *; try lia; [reflexivity|]. apply IH. lia. Qed.
Lemma rsum_minus n f g : rsum n (fun i => f i - g i) = rsum n f - rsum n g.
Proof. induction n as [|n IH]; [unfold rsum; cbn; ring|]. rewrite !rsum_S, IH. ring. Qed.

Lemma lin_lp xs ys A b C m w1 Q w2 J mJ e : let n := length xs in let p := length ys in
  NoDup (xs ++ ys) -> nr A = p -> shaped n (C, m, w1) -> posdef C -> nr Q = p -> nc Q = p -> posdef Q ->
  lin_blocks n p A C Q J -> nc J = (n + p)%nat -> mean_blocks n p A b m mJ ->
  exists l1 l2, lp (cov_obj xs (C, m, w1)) e = Ok l1 /\ lp (cov_obj ys (Q, lin_mean A b xs e, w2)) e = Ok l2 /\
    lp (cov_obj (xs ++ ys) (J, mJ, vadd w1 w2)) e = Ok (vadd l1 l2) /\ posdef J /\ mdet J = mdet C * mdet Q.
Proof.
  intros n p Hd HA Sh PC Q1 Q2 PQ BJ J2 (M1 & M2 & M3 & M4). pose proof Sh as (C1 & C2 & C3 & C4).
  destruct (lin_mat n p A C Q J C1 Q1 PC PQ BJ) as (PJ & DJ & QJ). pose proof BJ as (J1 & _).
  assert (L : length (xs ++ ys) = (n + p)%nat) by apply app_length.
  unfold lp, cov_obj. cbn [ga_vars]. rewrite !lp_cov_only.
  rewrite (cov_log_potential_ok n) by (exact Sh || apply map_length || (split; [apply PC|now apply posdef_det])).
  rewrite (cov_log_potential_ok p) by ((now repeat split) || apply map_length || (split; [apply PQ|now apply posdef_det])).
  rewrite (cov_log_potential_ok (n + p)) by ((now repeat split) || (now rewrite map_length) || (split; [apply PJ|now apply posdef_det])).
  do 2 eexists. split; [reflexivity|]. split; [reflexivity|]. split; [|split; [exact PJ|exact DJ]]. f_equal.
  rewrite QJ, DJ, pow_add.
  pose proof (posdef_det C PC) as DC. pose proof (posdef_det Q PQ) as DQ. pose proof (pow_lt _ n twopi_pos) as P1. pose proof (pow_lt _ p twopi_pos) as P2.
  replace ((2 * PI) ^ n * (2 * PI) ^ p * (mdet C * mdet Q)) with ((2 * PI) ^ n * mdet C * ((2 * PI) ^ p * mdet Q)) by ring.
  rewrite ln_mult by (now apply Rmult_lt_0_compat).
  assert (E1 : qsum n (minv C) (fun i => ent mJ i 0 - nth i (map e (xs ++ ys)) 0) = qsum n (minv C) (fun i => ent m i 0 - nth i (map e xs) 0)).
  { apply qsum_ext; [reflexivity|]. intros i Hi. rewrite M3 by exact Hi. rewrite map_app, app_nth1 by (rewrite map_length; exact Hi). reflexivity. }
  assert (E2 : qsum p (minv Q) (fun i => ent mJ (n + i)%nat 0 - nth (n + i)%nat (map e (xs ++ ys)) 0 - rsum n (fun l => ent A i l * (ent mJ l 0 - nth l (map e (xs ++ ys)) 0))) =
    qsum p (minv Q) (fun i => ent (lin_mean A b xs e) i 0 - nth i (map e ys) 0)).
  { apply qsum_ext; [reflexivity|]. intros i Hi. rewrite M4 by exact Hi. rewrite map_app, app_nth2 by (rewrite map_length; lia).
    rewrite map_length. fold n. replace (n + i - n)%nat with i by lia. cbn [lin_mean ent]. fold n.
    rewrite (rsum_ext n (fun l => ent A i l * (ent mJ l 0 - nth l (map e xs ++ map e ys) 0)) (fun l => ent A i l * ent m l 0 - ent A i l * e (nth l xs ""%string))).
    - rewrite rsum_minus. ring.
    - intros l Hl. rewrite M3 by exact Hl. rewrite app_nth1 by (rewrite map_length; exact Hl). rewrite nth_map_d by exact Hl. ring. }
  rewrite E1, E2. destruct w1, w2; cbn [vadd vsub vopp]; try reflexivity. f_equal. ring.
Qed.
