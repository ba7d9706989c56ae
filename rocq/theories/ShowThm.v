(** Printed tables of both classes, examples and counterexamples. *)
From Coq Require Import Sorted.
From Verif Require Export ShowFrames ShowText.
From Verif Require Import ArrFacts SparseProofs3 DenseProofs3 DenseProofs2 SparseOps SparseBinop GraphModel.
Local Open Scope nat_scope.
Local Open Scope string_scope.
Local Open Scope list_scope.

Lemma Forall2_mapr {A B C} (P : A -> B -> Prop) (g : C -> B) l m : Forall2 P l (map g m) -> Forall2 (fun a c => P a (g c)) l m.
Proof. revert l. induction m as [|c m IH]; intros l H; inversion H; subst; constructor; auto. Qed.
Lemma Forall2_in_r {A B} (P Q : A -> B -> Prop) l m : (forall a b, In b m -> P a b -> Q a b) -> Forall2 P l m -> Forall2 Q l m.
Proof.
  intros H F. induction F; constructor; [apply H; [now left|assumption]|]. apply IHF. intros a b Hb. apply H. now right.
Qed.
Theorem d_repr_aligned fmt f : wf_dense f -> dvars f <> [] -> Forall plain (dvars f) -> (forall v, plain (fmt v)) -> (forall v c, d_has_card f v c -> c <= 10 ^ 7) ->
  exists es cols head body, listed f es /\ length cols = S (length (dvars f)) /\ StronglySorted lt cols /\
    lines (d_repr fmt f) = head :: body ++ [""] /\ cells head = combine cols (dvars f ++ ["prob"]) /\
    Forall2 (fun line e => cells line = combine cols (map (fun v => dec_string (e v)) (dvars f) ++ [fmt (Fin (dpot f e))])) body es.
Proof.
  intros W N Hv Hf Hc. exists (envs f).
  destruct (text_aligned fmt (dvars f) (map (fun i => (i, tget (dtens f) i)) (tindices (dtens f))) N Hv Hf) as (cols & head & body & L & S & T & H & B).
  - intros k v Hk. apply in_map_iff in Hk. destruct Hk as (i & [= <- _] & Hi). destruct (d_index_env f i W Hi) as (E & R). rewrite <- E at 1. rewrite map_length. split; [reflexivity|].
    intros j Hj. rewrite <- E in Hj. apply in_map_iff in Hj. destruct Hj as (w & <- & Hw). pose proof (d_has_card_of f w W Hw) as Cw. eapply Nat.lt_le_trans; [exact (R _ _ Cw)|exact (Hc _ _ Cw)].
  - exists cols, head, body. split; [now apply envs_listed|]. split; [exact L|]. split; [exact S|]. split; [exact T|]. split; [exact H|].
    apply Forall2_mapr in B. rewrite <- (envs_keys f W) in B. apply Forall2_mapr in B. revert B. apply Forall2_in_r. intros line e He. cbn [fst snd].
    rewrite map_map. intros ->. do 4 f_equal. pose proof (proj1 (Forall_forall _ _) (proj1 (envs_listed f W)) e He) as R. exact (vexp_pot _ (wd_vals f W e R)).
Qed.
Theorem s_repr_aligned fmt f : wf_sparse f -> svars f <> [] -> Forall plain (svars f) -> (forall v, plain (fmt v)) -> (forall v c, has_card f v c -> c <= 10 ^ 7) ->
  exists cols head body, length cols = S (length (svars f)) /\ StronglySorted lt cols /\
    lines (s_repr fmt f) = head :: body ++ [""] /\ cells head = combine cols (svars f ++ ["prob"]) /\
    Forall2 (fun line kv => cells line = combine cols (map dec_string (fst kv) ++ [fmt (Fin (pot (snd kv)))])) body (stbl f).
Proof.
  intros W N Hv Hf Hc.
  destruct (text_aligned fmt (svars f) (stbl f) N Hv Hf) as (cols & head & body & L & S & T & H & B).
  - intros k v Hk. split; [exact (key_length f k v W Hk)|]. pose proof (wf_keys f W k v Hk) as F. unfold has_card in Hc.
    assert (Lc : length (scards f) = length (svars f)) by apply (wf_cards f W). revert Hc Lc. generalize (svars f) as vs. clear - F.
    induction F as [|i c k cs Hi F IH]; intros vs Hc Lc j Hj; [destruct Hj|]. destruct vs as [|v vs]; [discriminate|].
    destruct Hj as [<-|Hj].
    + eapply Nat.lt_le_trans; [exact Hi|]. apply (Hc v). now left.
    + apply (IH vs); [|now injection Lc|exact Hj]. intros v' c' X. apply (Hc v'). now right.
  - exists cols, head, body. split; [exact L|]. split; [exact S|]. split; [exact T|]. split; [exact H|].
    revert B. apply Forall2_in_r. intros line (k & v) Hkv. cbn [fst snd]. intros ->. do 4 f_equal. exact (vexp_pot _ (wf_vals f W k v Hkv)).
Qed.
