(** The Cholesky factor and the joint of affine transforms. *)
From Verif Require Export SigmaFacts MxSel.
#[global] Set Bullet Behavior "Strict Subproofs".
Local Open Scope R_scope.

Lemma rsum_Sl n f : rsum (S n) f = (f 0%nat + rsum n (fun i => f (S i)))%R.
Proof.
  change (S n) with (1 + n)%nat. rewrite rsum_app, rsum_1. reflexivity.
Qed.
Definition symf (n : nat) (A : nat -> nat -> R) := forall i j, (i < n)%nat -> (j < n)%nat -> A i j = A j i.
Definition lower (n : nat) (L : nat -> nat -> R) := forall i j, (i < j < n)%nat -> L i j = 0.
Definition schurf (A : nat -> nat -> R) : nat -> nat -> R := fun i j => A (S i) (S j) - A (S i) 0%nat * A (S j) 0%nat / A 0%nat 0%nat.
Lemma schurf_sym n A : symf (S n) A -> symf n (schurf A).
Proof. intros H i j Hi Hj. unfold schurf. rewrite (H (S i) (S j)) by lia. unfold Rdiv. ring. Qed.
Lemma chol_sound n : forall A L, symf n A -> chol_fn n A = Some L ->
  lower n L /\ (forall i, (i < n)%nat -> 0 < L i i) /\ forall i j, (i < n)%nat -> (j < n)%nat -> rsum n (fun k => L i k * L j k) = A i j.
Proof.
  induction n as [|n IH]; intros A L HS E; [split; [intros i j; lia|split; intros; lia]|]. cbn [chol_fn] in E.
  unfold Rlt_b in E. destruct (Rlt_dec 0 (A 0%nat 0%nat)) as [Hp|]; [|discriminate].
  fold (schurf A) in E. destruct (chol_fn n (schurf A)) as [L'|] eqn:E'; [|discriminate]. injection E as <-.
  destruct (IH _ L' (schurf_sym n A HS) E') as (I1 & I2 & I3). pose proof (sqrt_lt_R0 _ Hp) as Hs.
  assert (Hss : sqrt (A 0%nat 0%nat) * sqrt (A 0%nat 0%nat) = A 0%nat 0%nat) by (apply sqrt_sqrt; lra).
  split; [|split].
  - intros [|i] [|j] Hij; try lia; [reflexivity|]. apply I1. lia.
  - intros [|i] Hi; [exact Hs|]. apply I2. lia.
  - intros i j Hi Hj. rewrite rsum_Sl. destruct i as [|i], j as [|j].
    + rewrite rsum_zero by (intros; ring). rewrite Hss. ring.
    + rewrite rsum_zero by (intros; ring). rewrite (HS 0%nat (S j)) by lia. field. lra.
    + rewrite rsum_zero by (intros; ring). field. lra.
    + rewrite I3 by lia. unfold schurf. replace (A (S i) 0%nat / _ * _) with (A (S i) 0%nat * A (S j) 0%nat / (sqrt (A 0%nat 0%nat) * sqrt (A 0%nat 0%nat))) by (field; lra).
      rewrite Hss. field. lra.
Qed.
Definition pdf (n : nat) (A : nat -> nat -> R) := forall u : nat -> R, (exists i, (i < n)%nat /\ u i <> 0) ->
  0 < rsum n (fun i => rsum n (fun j => u i * A i j * u j)).
Lemma pdf_head n A : pdf (S n) A -> 0 < A 0%nat 0%nat.
Proof.
  intros H. specialize (H (fun i => match i with O => 1 | S _ => 0 end)). rewrite !rsum_Sl in H.
  rewrite (rsum_zero n (fun i => rsum (S n) _)) in H by (intros; apply rsum_zero; intros; ring).
  rewrite rsum_zero in H by (intros; ring). assert (0 < 1 * A 0%nat 0%nat * 1 + 0 + 0); [|lra]. apply H. exists 0%nat. split; [lia|lra].
Qed.
Lemma pdf_schur n A : symf (S n) A -> pdf (S n) A -> pdf n (schurf A).
Proof.
  intros HS H u (i & Hi & Hu). pose proof (pdf_head n A H) as Ha. set (a := A 0%nat 0%nat) in *.
  set (s := rsum n (fun i => A (S i) 0%nat * u i)).
  set (v := fun k => match k with O => - s / a | S k' => u k' end).
  assert (Hv : 0 < rsum (S n) (fun i => rsum (S n) (fun j => v i * A i j * v j))) by (apply H; exists (S i); split; [lia|exact Hu]).
  rewrite rsum_Sl in Hv.
  rewrite (rsum_ext n (fun i => rsum (S n) (fun j => v (S i) * A (S i) j * v j))
             (fun i => (- s / a) * (A (S i) 0%nat * u i) + rsum n (fun j => u i * A (S i) (S j) * u j))) in Hv.
  2: { intros k Hk. rewrite rsum_Sl. cbn [v]. f_equal. ring. }
  rewrite rsum_plus, rsum_scal, rsum_Sl in Hv. fold s in Hv. cbn [v] in Hv. fold a in Hv.
  rewrite (rsum_ext n (fun i => - s / a * A 0%nat (S i) * u i) (fun i => (- s / a) * (A (S i) 0%nat * u i))) in Hv
    by (intros k Hk; rewrite (HS 0%nat (S k)) by lia; ring).
  rewrite rsum_scal in Hv. fold s in Hv.
  assert (E : rsum n (fun i => rsum n (fun j => u i * schurf A i j * u j)) =
    rsum n (fun i => rsum n (fun j => u i * A (S i) (S j) * u j)) - s * s / a).
  { rewrite (rsum_ext n (fun i => rsum n (fun j => u i * schurf A i j * u j))
       (fun i => rsum n (fun j => u i * A (S i) (S j) * u j) - s / a * (A (S i) 0%nat * u i))).
    - rewrite rsum_minus, rsum_scal. fold s. field. lra.
    - intros k Hk. rewrite (rsum_ext n (fun j => u k * schurf A k j * u j)
        (fun j => u k * A (S k) (S j) * u j - (u k * A (S k) 0%nat / a) * (A (S j) 0%nat * u j))) by (intros; unfold schurf; fold a; field; lra).
      rewrite rsum_minus, rsum_scal. fold s. field. lra. }
  rewrite E. replace (rsum n (fun i => rsum n (fun j => u i * A (S i) (S j) * u j)) - s * s / a) with
   (- s / a * a * (- s / a) + - s / a * s + (- s / a * s + rsum n (fun i => rsum n (fun j => u i * A (S i) (S j) * u j)))) by (field; lra).
  exact Hv.
Qed.
Lemma chol_complete n : forall A, symf n A -> pdf n A -> exists L, chol_fn n A = Some L.
Proof.
  induction n as [|n IH]; intros A HS HP; [eexists; reflexivity|]. cbn [chol_fn]. unfold Rlt_b.
  destruct (Rlt_dec 0 (A 0%nat 0%nat)) as [_|N]; [|destruct N; now apply (pdf_head n)].
  fold (schurf A). destruct (IH (schurf A) (schurf_sym n A HS) (pdf_schur n A HS HP)) as (L & ->). eexists. reflexivity.
Qed.
Lemma np_cholesky_ok A : nc A = nr A -> posdef A ->
  exists L, np_cholesky A = Ok L /\ nr L = nr A /\ nc L = nr A /\ lower (nr A) (ent L) /\ meq (mmul0 L (mtr L)) A.
Proof.
  intros Hn (HS & HP). unfold np_cholesky. rewrite Hn, Nat.eqb_refl.
  destruct (chol_complete (nr A) (ent A)) as (L & E); [intros i j Hi Hj; now apply HS|exact HP|]. rewrite E.
  destruct (chol_sound (nr A) (ent A) L (fun i j Hi Hj => HS i j Hi Hj) E) as (I1 & I2 & I3).
  eexists. split; [reflexivity|]. cbn [nr nc ent]. repeat (split; [reflexivity|]). split; [exact I1|].
  split; [reflexivity|]. split; [cbn; congruence|]. intros i j Hi Hj. cbn in *. now apply I3.
Qed.
Lemma np_cholesky_sound A L : symm A -> np_cholesky A = Ok L ->
  nr L = nr A /\ nc L = nr A /\ lower (nr A) (ent L) /\ (forall i, (i < nr A)%nat -> 0 < ent L i i) /\ meq (mmul0 L (mtr L)) A.
Proof.
  intros HS E. unfold np_cholesky in E. destruct (Nat.eqb_spec (nr A) (nc A)) as [Hn|]; [|discriminate].
  destruct (chol_fn (nr A) (ent A)) as [L0|] eqn:E0; [|discriminate]. injection E as <-.
  destruct (chol_sound (nr A) (ent A) L0 (fun i j Hi Hj => HS i j Hi Hj) E0) as (I1 & I2 & I3). cbn [nr nc ent].
  repeat (split; [reflexivity|]). split; [exact I1|]. split; [exact I2|]. split; [reflexivity|]. split; [exact Hn|]. intros i j Hi Hj. cbn in *. now apply I3.
Qed.
