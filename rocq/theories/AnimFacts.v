(** Occurrences of texts, regular expressions and the colours of the drawn graph. *)
From Coq Require Import Lia.
From Verif Require Export AnimModel.
From Verif Require Import BaseFacts.
Local Open Scope nat_scope.
Local Open Scope list_scope.

Lemma aeqb_iff a b : aeqb a b = true <-> a = b.
Proof. unfold aeqb. destruct (ascii_dec a b); split; congruence. Qed.
Lemma aeqb_refl a : aeqb a a = true.
Proof. now apply aeqb_iff. Qed.
Lemma teqb_iff a b : teqb a b = true <-> a = b.
Proof. unfold teqb. destruct (list_eq_dec ascii_dec a b); split; congruence. Qed.
Lemma starts_iff p : forall s, starts p s = true <-> exists t, s = p ++ t.
Proof.
  induction p as [|a p IH]; intros s; [cbn; split; [now exists s|reflexivity]|]. destruct s as [|b s]; cbn; [split; [easy|now intros (t & H)]|].
  rewrite andb_true_iff, aeqb_iff, IH. split; [intros (-> & t & ->); now exists t|intros (t & [= -> ->]); split; [reflexivity|now exists t]].
Qed.
Lemma contains_iff p : forall s, contains p s = true <-> exists u v, s = u ++ p ++ v.
Proof.
  induction s as [|x s IH]; cbn [contains].
  - rewrite orb_false_r, starts_iff. split; [intros (t & H); now exists [], t|]. intros (u & v & H). destruct u; [now exists v|easy].
  - rewrite orb_true_iff, starts_iff, IH. split.
    + intros [(t & H)|(u & v & ->)]; [now exists [], t|now exists (x :: u), v].
    + intros (u & v & H). destruct u as [|y u]; [left; now exists v|]. injection H as -> ->. right. now exists u, v.
Qed.
Lemma contains_false p s : contains p s = false <-> forall u v, s <> u ++ p ++ v.
Proof.
  split; [intros H u v E; assert (C : contains p s = true) by (apply contains_iff; now exists u, v); congruence|].
  intros H. destruct (contains p s) eqn:E; [|reflexivity]. apply contains_iff in E. destruct E as (u & v & E). now apply H in E.
Qed.
Lemma contains_self p u v : contains p (u ++ p ++ v) = true.
Proof. apply contains_iff. now exists u, v. Qed.
Lemma contains_length p s : contains p s = true -> length p <= length s.
Proof. intros H. apply contains_iff in H. destruct H as (u & v & ->). rewrite !app_length. lia. Qed.

(** A character that is not in the pattern separates occurrences. *)
Lemma starts_sep p c : ~ In c p -> forall u v, starts p (u ++ c :: v) = starts p u.
Proof.
  intros N. induction p as [|a p IH]; intros u v; [destruct u; reflexivity|]. destruct u as [|b u]; cbn.
  - destruct (aeqb a c) eqn:E; [|reflexivity]. apply aeqb_iff in E. subst a. now contradict N; left.
  - rewrite IH; [reflexivity|]. intros H. apply N. now right.
Qed.
Lemma contains_sep p c : p <> [] -> ~ In c p -> forall u v, contains p (u ++ c :: v) = contains p u || contains p v.
Proof.
  intros P N. induction u as [|b u IH]; intros v.
  - cbn [app contains]. assert (E : starts p (c :: v) = false).
    { destruct p as [|a p]; [easy|]. cbn. destruct (aeqb a c) eqn:E; [|reflexivity]. apply aeqb_iff in E. subst a. now contradict N; left. }
    rewrite E. assert (F : starts p [] = false) by (destruct p; easy). now rewrite F.
  - cbn [app contains]. change (b :: u ++ c :: v) with ((b :: u) ++ c :: v). rewrite (starts_sep p c N), IH. now rewrite orb_assoc.
Qed.
Lemma contains_nil p : p <> [] -> contains p [] = false.
Proof. destruct p; easy. Qed.
Lemma remove_from_sep p c : p <> [] -> ~ In c p -> forall u k v, k <= length u -> remove_from p k (u ++ c :: v) = remove_from p k u ++ c :: remove_from p 0 v.
Proof.
  intros P N. induction u as [|b u IH]; intros k v Hk.
  - assert (k = 0) by (cbn in Hk; lia). subst k. cbn [app remove_from]. assert (E : starts p (c :: v) = false).
    { destruct p as [|a p]; [easy|]. cbn. destruct (aeqb a c) eqn:E; [|reflexivity]. apply aeqb_iff in E. subst a. now contradict N; left. }
    now rewrite E.
  - cbn [app remove_from]. destruct k as [|k]; [|apply IH; cbn in Hk; lia]. change (b :: u ++ c :: v) with ((b :: u) ++ c :: v). rewrite (starts_sep p c N).
    destruct (starts p (b :: u)) eqn:E; [|cbn; f_equal; apply IH; lia].
    apply starts_iff in E. destruct E as (t & E). apply IH. assert (L : length (b :: u) = length p + length t) by (rewrite E; apply app_length). cbn in L. lia.
Qed.
Lemma remove_all_sep p c u v : ~ In c p -> remove_all p (u ++ c :: v) = remove_all p u ++ c :: remove_all p v.
Proof. intros N. unfold remove_all. destruct p as [|a p]; [reflexivity|]. apply remove_from_sep; [discriminate|exact N|lia]. Qed.
Lemma remove_all_none p s : contains p s = false -> remove_all p s = s.
Proof.
  unfold remove_all. destruct p as [|a p]; [reflexivity|]. induction s as [|x s IH]; [reflexivity|]. cbn [contains remove_from]. intros H. apply orb_false_iff in H. destruct H as (H1 & H2).
  rewrite H1. f_equal. now apply IH.
Qed.
(** A text between two separators survives the removal of a text that it does not contain. *)
Lemma remove_keeps p c u w v : ~ In c p -> contains p w = false -> contains w (remove_all p (u ++ c :: w ++ c :: v)) = true.
Proof.
  intros N H. rewrite (remove_all_sep p c u (w ++ c :: v) N), (remove_all_sep p c w v N), (remove_all_none p w H).
  apply contains_iff. exists (remove_all p u ++ [c]), (c :: remove_all p v). rewrite <- app_assoc. reflexivity.
Qed.

(** What a pattern matches, and soundness of the search. *)
Fixpoint denotes (p : list item) (w : text) : Prop :=
  match p with
  | [] => w = []
  | One c :: p' => exists x t, w = x :: t /\ in_cls c x = true /\ denotes p' t
  | Opt c :: p' => denotes p' w \/ exists x t, w = x :: t /\ in_cls c x = true /\ denotes p' t
  | Star c :: p' => exists u t, w = u ++ t /\ (forall x, In x u -> in_cls c x = true) /\ denotes p' t
  end.
Lemma re_star_sound {B} c (k : text -> option B) : forall s r, re_star c s k = Some r -> exists u t, s = u ++ t /\ (forall x, In x u -> in_cls c x = true) /\ k t = Some r.
Proof.
  induction s as [|x s IH]; intros r H; cbn in H; [now exists [], []|]. destruct (in_cls c x) eqn:E; [|now exists [], (x :: s)].
  destruct (re_star c s k) as [r'|] eqn:E2; [injection H as ->|now exists [], (x :: s)].
  destruct (IH r eq_refl) as (u & t & -> & H1 & H2). exists (x :: u), t. split; [reflexivity|]. split; [|exact H2]. intros y [<-|Hy]; auto.
Qed.
Lemma re_match_sound {B} (p : list item) : forall s (k : text -> option B) r, re_match p s k = Some r -> exists w t, s = w ++ t /\ denotes p w /\ k t = Some r.
Proof.
  induction p as [|[c|c|c] p IH]; intros s k r H; cbn in H.
  - now exists [], s.
  - destruct s as [|x s]; [easy|]. destruct (in_cls c x) eqn:E; [|easy]. apply IH in H. destruct H as (w & t & -> & H1 & H2). exists (x :: w), t. split; [reflexivity|]. split; [now exists x, w|exact H2].
  - assert (G : forall q, re_match p q k = Some r -> exists w t, q = w ++ t /\ denotes (Opt c :: p) w /\ k t = Some r).
    { intros q Hq. apply IH in Hq. destruct Hq as (w & t & -> & H1 & H2). exists w, t. split; [reflexivity|]. split; [now left|exact H2]. }
    destruct s as [|x s]; [now apply G|]. destruct (in_cls c x) eqn:E; [|now apply G]. destruct (re_match p s k) as [r'|] eqn:E2; [injection H as ->|now apply G].
    apply IH in E2. destruct E2 as (w & t & -> & H1 & H2). exists (x :: w), t. split; [reflexivity|]. split; [right; now exists x, w|exact H2].
  - apply re_star_sound in H. destruct H as (u & t & -> & H1 & H). apply IH in H. destruct H as (w & t2 & -> & H2 & H3). exists (u ++ w), t2. split; [now rewrite app_assoc|]. split; [now exists u, w|exact H3].
Qed.
Lemma denotes_lits a p w : denotes (lits a ++ p) w -> exists t, w = a ++ t /\ denotes p t.
Proof.
  revert w. induction a as [|c a IH]; intros w H; [now exists w|]. cbn in H. destruct H as (x & t & -> & E & H). cbn in E. apply aeqb_iff in E. subst x. apply IH in H. destruct H as (t2 & -> & H). now exists t2.
Qed.
Lemma denotes_opt c p w : denotes (Opt (CLit c) :: p) w -> exists q t, w = q ++ t /\ (q = [] \/ q = [c]) /\ denotes p t.
Proof.
  intros [H|(x & t & -> & E & H)]; [exists [], w; auto|]. cbn in E. apply aeqb_iff in E. subst x. exists [c], t. auto.
Qed.
Lemma match3_none p s : (forall w t, s = w ++ t -> ~ denotes (grp1 p) w) -> match3 p s = None.
Proof.
  intros H. unfold match3. destruct (re_match (grp1 p) s _) as [r|] eqn:E; [|reflexivity]. apply re_match_sound in E. destruct E as (w & t & Hs & Hw & _). now destruct (H w t Hs Hw).
Qed.
Lemma re_sub_none p color s : (forall u w t, s = u ++ w ++ t -> ~ denotes (grp1 p) w) -> re_sub p color 0 s = s.
Proof.
  induction s as [|x s IH]; intros H; [reflexivity|]. cbn [re_sub]. rewrite match3_none; [|intros w t E; now apply (H [] w t)]. f_equal. apply IH. intros u w t E. apply (H (x :: u) w t). now rewrite E.
Qed.
Lemma re_sub_skip p color v : forall u, re_sub p color (length u) (u ++ v) = re_sub p color 0 v.
Proof. induction u as [|x u IH]; [reflexivity|]. cbn [length app re_sub]. exact IH. Qed.
Lemma firstn_part {A} (u v : list A) : firstn (length (u ++ v) - length v) (u ++ v) = u.
Proof. rewrite app_length, Nat.add_sub. rewrite firstn_app, Nat.sub_diag, firstn_all. cbn. apply app_nil_r. Qed.
Lemma re_sub_hit p P col T e color : P <> [] -> match3 p (P ++ col ++ tx " " ++ T ++ e) = Some (col ++ tx " " ++ T ++ e, T ++ e, e) -> re_sub p color 0 e = e ->
  re_sub p color 0 (P ++ col ++ tx " " ++ T ++ e) = P ++ color ++ tx " " ++ T ++ e.
Proof.
  intros NP H He. remember (P ++ col ++ tx " " ++ T ++ e) as s eqn:Es. assert (exists x s', s = x :: s') as (x & s' & Ex) by (destruct P as [|x P]; [easy|]; subst s; cbn; eauto).
  rewrite Ex at 1. cbn [re_sub]. rewrite <- Ex, H. rewrite Es at 1 2. rewrite firstn_part. rewrite (firstn_part T e). f_equal. f_equal. f_equal. f_equal.
  assert (E : s' = (tl P ++ col ++ tx " " ++ T) ++ e) by (destruct P as [|y P]; [easy|]; rewrite Ex in Es; injection Es as -> ->; cbn [tl]; now rewrite <- !app_assoc).
  assert (L : pred (length s - length e) = length (tl P ++ col ++ tx " " ++ T)).
  { rewrite Ex. cbn [length]. rewrite E, app_length. lia. }
  rewrite L, E, re_sub_skip. exact He.
Qed.

(** Runs of the matcher. *)
Lemma re_lits {B} a p s (k : text -> option B) : re_match (lits a ++ p) (a ++ s) k = re_match p s k.
Proof. induction a as [|c a IH]; [reflexivity|]. cbn. now rewrite aeqb_refl. Qed.
Lemma re_opt {B} c p x s (k : text -> option B) r : in_cls c x = true -> re_match p s k = Some r -> re_match (Opt c :: p) (x :: s) k = Some r.
Proof. intros H E. cbn. now rewrite H, E. Qed.
Lemma re_one {B} c p x s (k : text -> option B) : in_cls c x = true -> re_match (One c :: p) (x :: s) k = re_match p s k.
Proof. intros H. cbn. now rewrite H. Qed.
Lemma re_star_none {B} c (k : text -> option B) s : (forall y v, s = y ++ v -> k v = None) -> re_star c s k = None.
Proof.
  induction s as [|x s IH]; intros H; cbn; [now apply (H [] [])|]. rewrite (H [] (x :: s) eq_refl). rewrite IH; [now destruct (in_cls c x)|]. intros y v E. apply (H (x :: y) v). now rewrite E.
Qed.
Lemma re_star_last {B} c (k : text -> option B) v r : k v = Some r -> (forall y w, v = y ++ w -> y <> [] -> k w = None) -> forall u, (forall x, In x u -> in_cls c x = true) -> re_star c (u ++ v) k = Some r.
Proof.
  intros Hv Hn. induction u as [|x u IH]; intros Hu.
  - cbn [app]. destruct v as [|y v]; [exact Hv|]. cbn. rewrite (re_star_none c k v); [rewrite Hv; now destruct (in_cls c y)|]. intros z w E. apply (Hn (y :: z) w); [now rewrite E|discriminate].
  - cbn [app re_star]. rewrite (Hu x) by now left. rewrite IH; [reflexivity|]. intros y Hy. apply Hu. now right.
Qed.
Lemma re_star_stop {B} c (k : text -> option B) v r : k v = Some r -> (match v with [] => True | x :: _ => in_cls c x = false end) -> forall u, (forall x, In x u -> in_cls c x = true) -> re_star c (u ++ v) k = Some r.
Proof.
  intros Hv Hn. induction u as [|x u IH]; intros Hu.
  - cbn [app]. destruct v as [|y v]; [exact Hv|]. cbn. now rewrite Hn.
  - cbn [app re_star]. rewrite (Hu x) by now left. rewrite IH; [reflexivity|]. intros y Hy. apply Hu. now right.
Qed.
Lemma re_match_star {B} c p s (k : text -> option B) : re_match (Star c :: p) s k = re_star c s (fun t => re_match p t k).
Proof. reflexivity. Qed.
Lemma re_lits_none {B} a p s (k : text -> option B) : (forall t, s <> a ++ t) -> re_match (lits a ++ p) s k = None.
Proof.
  revert s. induction a as [|c a IH]; intros s H; [now contradiction (H s)|]. cbn. destruct s as [|x s]; [reflexivity|]. destruct (aeqb c x) eqn:E; [|reflexivity]. apply aeqb_iff in E. subst x. apply IH. intros t ->. now apply (H t).
Qed.
