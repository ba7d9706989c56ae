(** Printed tables line up. *)
From Coq Require Import Decimal DecimalNat DecimalString Sorted.
From Verif Require Export ShowSpec.
From Verif Require Import GraphModel.
Local Open Scope nat_scope.
Local Open Scope string_scope.
Local Open Scope list_scope.

Lemma app_assoc' (a b c : string) : String.append (String.append a b) c = String.append a (String.append b c).
Proof. induction a; cbn; congruence. Qed.
Lemma app_nil' (a : string) : String.append a "" = a.
Proof. induction a; cbn; congruence. Qed.
Lemma app_length' (a b : string) : String.length (String.append a b) = String.length a + String.length b.
Proof. induction a; cbn; congruence. Qed.
Lemma concat_cons (x : string) l : String.concat "" (x :: l) = String.append x (String.concat "" l).
Proof. destruct l; cbn; [now rewrite app_nil'|reflexivity]. Qed.

(** ** Lines *)
Lemma lines_plain w : no_breaks w -> forall cur s, lines_from cur (String.append w s) = lines_from (String.append cur w) s.
Proof.
  induction w as [|c w IH]; intros H cur s; cbn; [now rewrite app_nil'|]. destruct H as (_ & -> & H). rewrite IH by exact H. now rewrite app_assoc'.
Qed.
Fixpoint no_newline (s : string) : Prop := match s with EmptyString => True | String c s' => is_newline c = false /\ no_newline s' end.
Lemma lines_line w : no_newline w -> forall cur s, lines_from cur (String.append w (String.append newline s)) = String.append cur w :: lines_from "" s.
Proof.
  induction w as [|c w IH]; intros H cur s; [cbn; now rewrite app_nil'|]. destruct H as (H0 & H). cbn [String.append lines_from]. rewrite H0, IH by exact H. now rewrite app_assoc'.
Qed.
Lemma no_newline_app a b : no_newline a -> no_newline b -> no_newline (String.append a b).
Proof. induction a; cbn; tauto. Qed.
Lemma plain_newline w : no_breaks w -> no_newline w.
Proof. induction w; cbn; tauto. Qed.

(** ** Cells *)
Lemma cells_plain w : no_breaks w -> forall col st cur s,
  cells_from col st cur (String.append w s) = cells_from (col + String.length w) st (String.append cur w) s.
Proof.
  induction w as [|c w IH]; intros H col st cur s; cbn; [now rewrite app_nil', Nat.add_0_r|]. destruct H as (-> & _ & H).
  rewrite IH by exact H. rewrite app_assoc'. f_equal. lia.
Qed.
Lemma div8 m L : (8 * m + L) / 8 = m + L / 8.
Proof. rewrite Nat.mul_comm, Nat.div_add_l by lia. reflexivity. Qed.
Lemma cells_tab col st cur s : cells_from col st cur (String.append tab s) = flush st cur ++ cells_from (8 * (col / 8 + 1)) (8 * (col / 8 + 1)) "" s.
Proof. reflexivity. Qed.
Lemma times_S s n : times s (S n) = String.append s (times s n).
Proof. unfold times. cbn [repeat]. apply concat_cons. Qed.
Lemma cells_tabs n : forall m s, cells_from (8 * m) (8 * m) "" (String.append (times tab n) s) = cells_from (8 * (m + n)) (8 * (m + n)) "" s.
Proof.
  induction n as [|n IH]; intros m s; [cbn; now rewrite !Nat.add_0_r|]. rewrite times_S, app_assoc', cells_tab. cbn [flush app].
  replace (8 * m / 8) with m by (rewrite Nat.mul_comm, Nat.div_mul; lia). rewrite IH. do 2 f_equal; lia.
Qed.
Lemma flush_plain st w : plain w -> flush st w = [(st, w)].
Proof. intros [H _]. destruct w; [congruence|reflexivity]. Qed.
Lemma cell_head m v s : plain v ->
  cells_from (8 * m) (8 * m) "" (String.append v (String.append tab s)) =
  (8 * m, v) :: cells_from (8 * (m + tabs_to_cover v)) (8 * (m + tabs_to_cover v)) "" s.
Proof.
  intros H. rewrite cells_plain by apply H. rewrite cells_tab. cbn [String.append]. rewrite flush_plain by exact H. rewrite div8. unfold tabs_to_cover.
  now rewrite Nat.add_assoc.
Qed.
Lemma cell_row m w v s : plain w -> String.length w < 8 ->
  cells_from (8 * m) (8 * m) "" (String.append w (String.append (times tab (tabs_to_cover v)) s)) =
  (8 * m, w) :: cells_from (8 * (m + tabs_to_cover v)) (8 * (m + tabs_to_cover v)) "" s.
Proof.
  intros H L. rewrite cells_plain by apply H. unfold tabs_to_cover. rewrite Nat.add_1_r, times_S, app_assoc', cells_tab. cbn [String.append].
  rewrite flush_plain by exact H. rewrite div8, (Nat.div_small _ 8 L). cbn [app]. rewrite Nat.add_0_r, cells_tabs. do 2 f_equal; lia.
Qed.
Lemma cell_last m w : plain w -> cells_from (8 * m) (8 * m) "" w = [(8 * m, w)].
Proof.
  intros H. rewrite <- (app_nil' w) at 1. rewrite cells_plain by apply H. cbn [String.append cells_from]. now apply flush_plain.
Qed.

(** The columns of a table: each variable takes as many tab stops as its name covers. *)
Fixpoint starts (m : nat) (vars : list string) : list nat :=
  match vars with [] => [8 * m] | v :: vs => 8 * m :: starts (m + tabs_to_cover v) vs end.
Lemma starts_length m vars : length (starts m vars) = S (length vars).
Proof. revert m; induction vars as [|v l IH]; intros m; cbn; [|rewrite IH]; reflexivity. Qed.
Lemma starts_ge vars : forall m x, In x (starts m vars) -> 8 * m <= x.
Proof.
  induction vars as [|v l IH]; intros m x; cbn [starts]; [intros [<-|[]]; lia|]. intros [<-|H]; [lia|]. apply IH in H. lia.
Qed.
Lemma starts_sorted vars : forall m, StronglySorted lt (starts m vars).
Proof.
  induction vars as [|v l IH]; intros m; cbn [starts]; constructor; try constructor; [apply IH|].
  apply Forall_forall. intros x Hx. apply starts_ge in Hx. unfold tabs_to_cover in Hx. lia.
Qed.

Definition head_line (vars : list string) : string := String.append (String.concat tab vars) (String.append tab "prob").
Definition row_line (vars : list string) (ws : list string) (value : string) : string :=
  String.append (String.concat "" (map (fun wv => String.append (fst wv) (times tab (tabs_to_cover (snd wv)))) (combine ws vars))) value.
Lemma prob_plain : plain "prob".
Proof. split; [discriminate|cbn; tauto]. Qed.
Lemma head_cells vars : vars <> [] -> Forall plain vars -> forall m,
  cells_from (8 * m) (8 * m) "" (head_line vars) = combine (starts m vars) (vars ++ ["prob"]).
Proof.
  unfold head_line. induction vars as [|v l IH]; intros N H m; [congruence|]. inversion H as [|v' l' H1 H2]; subst. cbn [starts combine app].
  destruct l as [|w l].
  - cbn [String.concat]. rewrite cell_head by exact H1. apply (f_equal (cons _)). apply cell_last, prob_plain.
  - change (String.concat tab (v :: w :: l)) with (String.append v (String.append tab (String.concat tab (w :: l)))).
    rewrite !app_assoc'. rewrite cell_head by exact H1. apply (f_equal (cons _)). apply IH; [discriminate|exact H2].
Qed.
Lemma row_cells vars : forall ws value m, length ws = length vars -> Forall (fun w => plain w /\ String.length w < 8) ws -> plain value ->
  cells_from (8 * m) (8 * m) "" (row_line vars ws value) = combine (starts m vars) (ws ++ [value]).
Proof.
  unfold row_line. induction vars as [|v l IH]; intros [|w ws] value m L H P; try discriminate.
  - cbn [combine map String.concat String.append starts app]. now apply cell_last.
  - cbn [combine map starts app]. rewrite concat_cons. cbn [fst snd]. rewrite !app_assoc'. inversion H as [|? ? (H1 & H1') H2]; subst.
    rewrite cell_row by assumption. apply (f_equal (cons _)). apply IH; [now injection L|exact H2|exact P].
Qed.

(** ** Digits *)
Definition nd (d : uint) : nat := String.length (NilEmpty.string_of_uint d).
Lemma acc_ge d : forall acc, acc * 10 ^ nd d <= Nat.of_uint_acc d acc.
Proof.
  induction d; intros acc; [cbn; lia|..]; cbn [Nat.of_uint_acc]; rewrite !Nat.tail_mul_spec;
    (eapply Nat.le_trans; [|apply IHd]); unfold nd; cbn [NilEmpty.string_of_uint String.length]; rewrite Nat.pow_succ_r'; fold (nd d); nia.
Qed.
Lemma nd_digits d : nd d = nb_digits d.
Proof. unfold nd. induction d; cbn; congruence. Qed.
Lemma lead_lt d i k : 1 <= i -> S (nd d) > k -> Nat.of_uint_acc d i < 10 ^ k -> False.
Proof.
  intros Hi L H. pose proof (acc_ge d i). assert (10 ^ k <= 10 ^ nd d) by (apply Nat.pow_le_mono_r; lia). nia.
Qed.
Lemma of_lt d k : unorm d = d -> d <> D0 Nil -> Nat.of_uint d < 10 ^ k -> nd d <= k.
Proof.
  intros U Z H. destruct (Nat.le_gt_cases (nd d) k) as [L|L]; [exact L|exfalso].
  unfold Nat.of_uint in H. destruct d as [|d|d|d|d|d|d|d|d|d|d].
  - cbn in L. lia.
  - apply Z. unfold unorm in U. cbn [nzhead] in U. destruct (nzhead d) eqn:E; [exact (eq_sym U)|..];
      exfalso; pose proof (f_equal nb_digits U) as W; rewrite <- E in W; pose proof (DecimalFacts.nb_digits_nzhead d); cbn [nb_digits] in W; lia.
  - now apply (lead_lt d 1 k).
  - now apply (lead_lt d 2 k ltac:(lia)).
  - now apply (lead_lt d 3 k ltac:(lia)).
  - now apply (lead_lt d 4 k ltac:(lia)).
  - now apply (lead_lt d 5 k ltac:(lia)).
  - now apply (lead_lt d 6 k ltac:(lia)).
  - now apply (lead_lt d 7 k ltac:(lia)).
  - now apply (lead_lt d 8 k ltac:(lia)).
  - now apply (lead_lt d 9 k ltac:(lia)).
Qed.
Lemma to_norm n : unorm (Nat.to_uint n) = Nat.to_uint n.
Proof. rewrite <- (Unsigned.to_of (Nat.to_uint n)). now rewrite Unsigned.of_to. Qed.
Lemma dec_length n k : 1 <= k -> n < 10 ^ k -> String.length (dec_string n) <= k.
Proof.
  intros Hk H. unfold dec_string. fold (nd (Nat.to_uint n)). destruct (Nat.eq_dec n 0) as [->|N]; [cbn; lia|].
  apply of_lt; [apply to_norm| |now rewrite Unsigned.of_to].
  intros E. apply (f_equal Nat.of_uint) in E. rewrite Unsigned.of_to in E. cbn in E. congruence.
Qed.
Lemma uint_plain d : no_breaks (NilEmpty.string_of_uint d).
Proof. induction d; cbn; auto. Qed.
Lemma dec_plain n : plain (dec_string n).
Proof.
  split; [|apply uint_plain]. unfold dec_string. intros E.
  assert (E' : Nat.to_uint n = Nil) by (destruct (Nat.to_uint n); (reflexivity || discriminate E)).
  pose proof (f_equal Nat.of_uint E') as F. rewrite Unsigned.of_to in F. cbn in F. subst n. discriminate E'.
Qed.

(** ** The text *)
Lemma space_line_eq vars : forall k value, length k = length vars ->
  space_line k value (spacings vars) = String.append (row_line vars (map dec_string k) value) newline.
Proof.
  unfold space_line, spacings, row_line. induction vars as [|v l IH]; intros [|i k] value L; try discriminate.
  - cbn [map app combine fst snd]. rewrite concat_cons. cbn [String.concat String.append]. now rewrite app_nil'.
  - cbn [map app combine fst snd]. rewrite !concat_cons. rewrite IH by now injection L. cbn [fst snd]. now rewrite !app_assoc'.
Qed.
Lemma tabs_newline n : no_newline (times tab n).
Proof. induction n as [|n IH]; [exact I|]. rewrite times_S. apply no_newline_app; [cbn; tauto|exact IH]. Qed.
Lemma row_newline vars : forall ws value, Forall no_breaks ws -> no_breaks value -> no_newline (row_line vars ws value).
Proof.
  intros ws value H P. unfold row_line. apply no_newline_app; [|now apply plain_newline]. revert vars. induction H as [|w ws H _ IH]; intros vars; [exact I|].
  destruct vars as [|v vars]; [exact I|]. cbn [combine map fst snd]. rewrite concat_cons. apply no_newline_app; [|apply IH].
  apply no_newline_app; [now apply plain_newline|apply tabs_newline].
Qed.
Lemma concat_newline vars : Forall plain vars -> no_newline (String.concat tab vars).
Proof.
  induction 1 as [|v l H _ IH]; [exact I|]. destruct l as [|w l]; [apply plain_newline, H|].
  change (String.concat tab (v :: w :: l)) with (String.append v (String.append tab (String.concat tab (w :: l)))).
  apply no_newline_app; [apply plain_newline, H|]. apply no_newline_app; [cbn; tauto|exact IH].
Qed.
Lemma head_newline vars : Forall plain vars -> no_newline (head_line vars).
Proof. intros H. apply no_newline_app; [now apply concat_newline|cbn; tauto]. Qed.
Lemma text_lines fmt vars rows : Forall plain vars -> (forall k v, In (k, v) rows -> length k = length vars /\ no_breaks (fmt (vexp v))) ->
  lines (table_text fmt vars rows) =
  head_line vars :: map (fun r => row_line vars (map dec_string (fst r)) (fmt (vexp (snd r)))) rows ++ [""].
Proof.
  intros Hv Hr. unfold lines, table_text.
  replace (header vars) with (String.append (head_line vars) newline) by (unfold header, head_line; now rewrite !app_assoc').
  rewrite app_assoc', lines_line by now apply head_newline. cbn [String.append]. apply (f_equal (cons _)).
  induction rows as [|(k & v) rows IH]; [reflexivity|]. cbn [map fst snd app]. rewrite concat_cons.
  destruct (Hr k v (or_introl eq_refl)) as (L & P). rewrite space_line_eq by exact L. rewrite app_assoc', lines_line.
  - cbn [String.append]. apply (f_equal (cons _)). apply IH. intros k' v' H. apply Hr. now right.
  - apply row_newline; [|exact P]. apply Forall_forall. intros w Hw. apply in_map_iff in Hw. destruct Hw as (i & <- & _). apply dec_plain.
Qed.
Theorem text_aligned fmt vars rows : vars <> [] -> Forall plain vars -> (forall v, plain (fmt v)) ->
  (forall k v, In (k, v) rows -> length k = length vars /\ forall i, In i k -> i < 10 ^ 7) ->
  exists cols head body, length cols = S (length vars) /\ StronglySorted lt cols /\
    lines (table_text fmt vars rows) = head :: body ++ [""] /\ cells head = combine cols (vars ++ ["prob"]) /\
    Forall2 (fun line r => cells line = combine cols (map dec_string (fst r) ++ [fmt (vexp (snd r))])) body rows.
Proof.
  intros N Hv Hf Hr. exists (starts 0 vars), (head_line vars), (map (fun r => row_line vars (map dec_string (fst r)) (fmt (vexp (snd r)))) rows).
  split; [apply starts_length|]. split; [apply starts_sorted|]. split; [apply text_lines; [exact Hv|]|].
  { intros k v H. split; [now apply (Hr k v) in H|apply Hf]. }
  split; [exact (head_cells vars N Hv 0)|].
  induction rows as [|(k & v) rows IH]; [constructor|]. cbn [map fst snd]. constructor.
  - destruct (Hr k v (or_introl eq_refl)) as (L & P). cbn [fst snd]. apply (row_cells vars (map dec_string k) _ 0); [now rewrite map_length| |apply Hf].
    apply Forall_forall. intros w Hw. apply in_map_iff in Hw. destruct Hw as (i & <- & Hi). split; [apply dec_plain|].
    pose proof (dec_length i 7 ltac:(lia) (P i Hi)). lia.
  - apply IH. intros k' v' H. apply (Hr k' v'). now right.
Qed.
(** A value with eight digits pushes the probability out of its column. *)
Definition wide : uint := D1 (D0 (D0 (D0 (D0 (D0 (D0 (D0 Nil))))))).
Definition wide_table : sparse := {| svars := ["a"]; scards := [S (Nat.of_uint wide)]; stbl := [([Nat.of_uint wide], Fin 0)]; sdef := NInf |}.
Lemma wide_string : dec_string (Nat.of_uint wide) = "10000000".
Proof. unfold dec_string. rewrite Unsigned.to_of. reflexivity. Qed.
Lemma wide_text fmt : (forall v, plain (fmt v)) -> exists head row, lines (s_repr fmt wide_table) = [head; row; ""] /\
  cells head = [(0, "a"); (8, "prob")] /\ cells row = [(0, "10000000"); (16, fmt (vexp (Fin 0)))].
Proof.
  intros Hf. unfold s_repr, wide_table. cbn [svars stbl]. rewrite text_lines.
  - cbn [map fst snd app]. rewrite wide_string. do 2 eexists. split; [reflexivity|]. split; [reflexivity|].
    unfold row_line, cells. cbn [combine map fst snd]. rewrite concat_cons. cbn [String.concat]. rewrite app_nil', app_assoc'.
    rewrite cells_plain by (cbn; tauto). change (times tab (tabs_to_cover "a")) with tab. rewrite cells_tab. cbn [String.append flush app String.length].
    apply (f_equal (cons _)). apply (cell_last 2), Hf.
  - repeat constructor. discriminate.
  - intros k v [E|[]]. inversion E; subst. split; [reflexivity|apply Hf].
Qed.
