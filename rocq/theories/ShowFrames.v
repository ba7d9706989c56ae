(** The data frames of the table classes. *)
From Coq Require Import Sorted.
From Verif Require Export ShowSpec.
From Verif Require Import ArrFacts SparseProofs3 DenseProofs3 DenseProofs2 SparseOps SparseBinop.
Local Open Scope nat_scope.
Local Open Scope string_scope.
Local Open Scope list_scope.

(** ** Dense tables *)
Definition envs (f : dense) : list (string -> nat) := map (env_of (dvars f)) (tindices (dtens f)).
Lemma envs_keys f : wf_dense f -> map (fun e : string -> nat => map e (dvars f)) (envs f) = tindices (dtens f).
Proof.
  intros W. unfold envs. rewrite map_map. rewrite <- (map_id (tindices (dtens f))) at 2. apply map_ext_in. intros k Hk. exact (proj1 (d_index_env f k W Hk)).
Qed.
Lemma envs_listed f : wf_dense f -> listed f (envs f).
Proof.
  intros W. split; [|split].
  - apply Forall_forall. intros e He. apply in_map_iff in He. destruct He as (k & <- & Hk). exact (proj2 (d_index_env f k W Hk)).
  - rewrite envs_keys by exact W. pose proof (proj1 (d_array_spec f W)) as S. unfold d_dense_array in S. rewrite map_map in S. cbn [fst] in S. now rewrite map_id in S.
  - intros e He. rewrite envs_keys by exact W. exact (d_env_index f e W He).
Qed.
Lemma array_envs f : wf_dense f -> d_dense_array f = map (fun e => (map e (dvars f), Fin (dpot f e))) (envs f).
Proof.
  intros W. unfold d_dense_array, envs. rewrite map_map. apply map_ext_in. intros k Hk. destruct (d_index_env f k W Hk) as (E & Hr). rewrite E.
  pose proof (wd_vals f W _ Hr) as L. unfold dpot. unfold dval in *. rewrite E in *. now rewrite vexp_pot.
Qed.
Definition num_row (r : list nat * val) : list cell := map (fun i => CNum (Fin (INR i))) (fst r) ++ [CNum (snd r)].
Lemma step_false f l : forall d, foldM (df_step f) l (false, d) = Ok (false, d ++ map num_row l).
Proof.
  induction l as [|x l IH]; intros d; [cbn; now rewrite app_nil_r|]. cbn [foldM df_step negb bind map]. rewrite IH, <- app_assoc. reflexivity.
Qed.
Lemma list_max_const (l : list (list cell)) n : l <> [] -> (forall r, In r l -> length r = n) -> list_max (map (@length cell) l) = n.
Proof.
  intros N H. apply Nat.le_antisymm.
  - apply list_max_le. apply Forall_forall. intros x Hx. apply in_map_iff in Hx. destruct Hx as (r & <- & Hr). now rewrite H.
  - destruct l as [|r l]; [congruence|]. cbn. rewrite (H r (or_introl eq_refl)). lia.
Qed.
Lemma mk_frame_ok rows cols : (forall r, In r rows -> length r = length cols) -> mk_frame rows cols = Ok {| fr_cols := cols; fr_rows := rows |}.
Proof.
  intros H. unfold mk_frame. destruct rows as [|r rows]; [reflexivity|]. rewrite (list_max_const (r :: rows) (length cols)) by (discriminate || exact H).
  rewrite Nat.eqb_refl. reflexivity.
Qed.
Theorem get_df_values f : wf_dense f -> exists es, listed f es /\ (~ In "prob" (dvars f) -> NoDup (dvars f ++ ["prob"])) /\
  d_get_df f false = Ok {| fr_cols := dvars f ++ ["prob"];
                           fr_rows := map (fun e => map (fun v => CNum (Fin (INR (e v)))) (dvars f) ++ [CNum (Fin (dpot f e))]) es |}.
Proof.
  intros W. exists (envs f). split; [now apply envs_listed|]. split; [intros Hp; apply NoDup_app_one; [apply (ws_vars f W)|exact Hp]|]. unfold d_get_df. rewrite step_false. cbn [bind snd app].
  rewrite (array_envs f W), map_map. unfold num_row. cbn [fst snd]. rewrite mk_frame_ok.
  - f_equal. f_equal. apply map_ext. intros e. now rewrite map_map.
  - intros r Hr. apply in_map_iff in Hr. destruct Hr as (e & <- & _). rewrite !app_length, !map_length. reflexivity.
Qed.

(** Names. *)
Lemma name_at f e v : wf_dense f -> d_in_range f e -> In v (dvars f) -> exists ns a, dget (dnames f) v = Some ns /\ nth_error ns (e v) = Some a.
Proof.
  intros W He Hv. rewrite <- (ws_keys f W) in Hv. apply In_dkeys_dget in Hv. destruct Hv as (ns & E). exists ns.
  pose proof (dget_Some_key _ _ _ E) as Hv. rewrite (ws_keys f W) in Hv. pose proof (d_has_card_of f v W Hv) as Hc. specialize (He _ _ Hc).
  pose proof (ws_names f W v ns _ E Hc) as L. pose proof (dedup_length_le ns). destruct (nth_error ns (e v)) as [a|] eqn:N; [eauto|].
  apply nth_error_None in N. lia.
Qed.
Lemma row_names_ok f e : wf_dense f -> d_in_range f e -> exists names, row_names f (map e (dvars f)) = Ok names /\
  Forall2 (fun v a => name_of f v (e v) a) (dvars f) names.
Proof.
  intros W He. unfold row_names. assert (I : incl (dvars f) (dvars f)) by apply incl_refl. revert I. generalize (dvars f) at 1 3 4 5 as vs.
  induction vs as [|v vs IH]; intros I; [exists []; split; [reflexivity|constructor]|].
  destruct IH as (names & E & F); [intros x Hx; apply I; now right|].
  destruct (name_at f e v W He (I v (or_introl eq_refl))) as (ns & a & Ev & Ea). exists (a :: names). cbn [map combine mapM fst snd].
  unfold dget_r at 1. rewrite Ev. cbn [bind]. unfold py_nth at 1. rewrite Ea. cbn [bind]. rewrite E. split; [reflexivity|]. constructor; [|exact F]. now exists ns.
Qed.
Lemma step_true f l : wf_dense f -> Forall (d_in_range f) l -> forall b d, (dvars f = [] \/ b = true) -> exists b' rows,
  foldM (df_step f) (map (fun e => (map e (dvars f), Fin (dpot f e))) l) (b, d) = Ok (b', d ++ rows) /\
  Forall2 (fun e r => exists names, Forall2 (fun v a => name_of f v (e v) a) (dvars f) names /\ r = map CName names ++ [CNum (Fin (dpot f e))]) l rows.
Proof.
  intros W H. induction H as [|e l He _ IH]; intros b d Hb.
  - exists b, []. cbn. rewrite app_nil_r. split; [reflexivity|constructor].
  - destruct (row_names_ok f e W He) as (names & E & F). cbn [map foldM df_step fst snd]. destruct b; cbn [negb].
    + rewrite E. cbn [bind]. destruct (IH (negb (Nat.eqb (length names) 0)) (d ++ [map CName names ++ [CNum (Fin (dpot f e))]])) as (b' & rows & E' & F').
      * destruct (dvars f) as [|v vs]; [now left|right]. inversion F; subst. reflexivity.
      * exists b', ((map CName names ++ [CNum (Fin (dpot f e))]) :: rows). rewrite E', <- app_assoc. split; [reflexivity|]. constructor; [|exact F']. now exists names.
    + destruct Hb as [Hb|Hb]; [|discriminate]. cbn [bind].
      destruct (IH false (d ++ [map (fun i : nat => CNum (Fin (INR i))) (map e (dvars f)) ++ [CNum (Fin (dpot f e))]])) as (b' & rows & E' & F'); [now left|].
      exists b', ([CNum (Fin (dpot f e))] :: rows). rewrite E', <- app_assoc. rewrite Hb. split; [reflexivity|]. constructor; [|now rewrite Hb in F'].
      exists []. split; [constructor|reflexivity].
Qed.
Lemma names_inj f e e' : (forall v ns, dget (dnames f) v = Some ns -> NoDup ns) -> forall vs names,
  Forall2 (fun v a => name_of f v (e v) a) vs names -> Forall2 (fun v a => name_of f v (e' v) a) vs names -> map e vs = map e' vs.
Proof.
  intros N. induction vs as [|v vs IH]; intros names H H'; [reflexivity|]. inversion H as [|? ? ? ? (ns & E & A) F]; subst. inversion H' as [|? ? ? ? (ns' & E' & A') F']; subst.
  cbn [map]. f_equal; [|eapply IH; eauto]. rewrite E in E'. injection E' as <-. pose proof (N v ns E) as D.
  apply (proj1 (NoDup_nth_error ns) D); [apply nth_error_Some; congruence|congruence].
Qed.
Theorem get_df_names f : wf_dense f -> exists es rows, listed f es /\
  d_get_df f true = Ok {| fr_cols := dvars f ++ ["prob"]; fr_rows := rows |} /\
  Forall2 (fun e r => exists names, Forall2 (fun v a => name_of f v (e v) a) (dvars f) names /\ r = map CName names ++ [CNum (Fin (dpot f e))]) es rows /\
  ((forall v ns, dget (dnames f) v = Some ns -> NoDup ns) -> NoDup (map (@removelast cell) rows)).
Proof.
  intros W. pose proof (envs_listed f W) as L. destruct (step_true f (envs f) W (proj1 L) true [] (or_intror eq_refl)) as (b & rows & E & F).
  exists (envs f), rows. split; [exact L|]. split; [|split; [exact F|]].
  - unfold d_get_df. rewrite (array_envs f W), E. cbn [bind snd app]. apply mk_frame_ok. intros r Hr.
    destruct (In_nth_error _ _ Hr) as (i & Hi).
    assert (X : exists e names, Forall2 (fun v a => name_of f v (e v) a) (dvars f) names /\ r = map CName names ++ [CNum (Fin (dpot f e))]).
    { clear - F Hr. induction F as [|e r0 es rows (names & A & B) F IH]; [destruct Hr|]. destruct Hr as [->|Hr]; [now exists e, names|now apply IH]. }
    destruct X as (e & names & A & ->). rewrite !app_length, map_length. cbn. f_equal. clear - A. induction A; cbn; congruence.
  - intros N. destruct L as (_ & S & _). clear E. revert S. induction F as [|e r es rows (names & A & B) F IH]; intros S; [constructor|].
    inversion S as [|? ? S' Hf]; subst. cbn [map]. constructor; [|now apply IH]. rewrite removelast_last. intros Hin. apply in_map_iff in Hin. destruct Hin as (r & Er & Hr).
    assert (X : exists e' names', In e' es /\ Forall2 (fun v a => name_of f v (e' v) a) (dvars f) names' /\ r = map CName names' ++ [CNum (Fin (dpot f e'))]).
    { clear - F Hr. induction F as [|e r0 es rows (names & A & B) F IH]; [destruct Hr|]. destruct Hr as [->|Hr]; [exists e, names; split; [now left|now split]|].
      destruct (IH Hr) as (e' & n' & I & J). exists e', n'. split; [now right|exact J]. }
    destruct X as (e' & names' & I & A' & ->). rewrite removelast_last in Er.
    assert (names' = names) as ->.
    { clear - Er. revert names Er. induction names' as [|a l IH]; intros [|b m] Er; try discriminate; [reflexivity|]. injection Er as -> Er. f_equal. now apply IH. }
    rewrite Forall_forall in Hf. specialize (Hf (map e' (dvars f)) (in_map (fun e => map e (dvars f)) es e' I)).
    rewrite (names_inj f e e' N _ _ A A') in Hf. exact (lex_lt_irrefl _ Hf).
Qed.

(** ** Sparse tables *)
Lemma dset_fresh {B} (g : string * nat -> B) l : forall d, NoDup (map fst l) -> (forall v, In v (map fst l) -> ~ In v (dkeys d)) ->
  fold_left (fun d vj => dset d (fst vj) (g vj)) l d = d ++ map (fun vj => (fst vj, g vj)) l.
Proof.
  induction l as [|x l IH]; intros d N H; [cbn; now rewrite app_nil_r|]. cbn [map] in N. inversion N; subst. cbn [fold_left map]. rewrite IH.
  - rewrite dset_new by (apply H; now left). now rewrite <- app_assoc.
  - assumption.
  - intros v Hv Hk. apply In_dkeys_dset in Hk. destruct Hk as [->|Hk]; [contradiction|]. revert Hk. apply H. now right.
Qed.
Lemma map_seq_nth {A B} (G : nat -> B) (g : A -> B) (l : list A) : (forall i x, nth_error l i = Some x -> G i = g x) -> map G (seq 0 (length l)) = map g l.
Proof.
  revert G. induction l as [|x l IH]; intros G H; [reflexivity|]. cbn [length seq map]. f_equal; [exact (H 0 x eq_refl)|].
  rewrite <- seq_shift, map_map. apply IH. intros i y Hy. apply (H (S i) y). exact Hy.
Qed.
Lemma key_length f k v : wf_struct f -> In (k, v) (stbl f) -> length k = length (svars f).
Proof. intros W H. pose proof (wf_keys f W k v H) as F. rewrite <- (wf_cards f W). clear - F. induction F; cbn; congruence. Qed.
Lemma key_cells k : map (fun j => key_cell k j) (seq 0 (length k)) = map (fun i => CNum (Fin (INR i))) k.
Proof. apply map_seq_nth. intros i x H. unfold key_cell. now rewrite H. Qed.
Lemma width_ok f : wf_struct f -> stbl f <> [] -> list_max (map (@length nat) (map fst (stbl f))) = length (svars f).
Proof.
  intros W N. apply Nat.le_antisymm.
  - apply list_max_le, Forall_forall. intros n Hn. apply in_map_iff in Hn. destruct Hn as (k & <- & Hk). apply in_map_iff in Hk. destruct Hk as ((k' & v) & <- & H).
    cbn [fst]. now rewrite (key_length f k' v W H).
  - destruct (stbl f) as [|(k & v) t] eqn:E; [congruence|]. rewrite <- (key_length f k v W) by (rewrite E; now left). cbn. lia.
Qed.
Lemma filter_fresh l : ~ In "log_prob" l -> filter (fun c => negb (eqb c "log_prob")) l = l.
Proof.
  induction l as [|x l IH]; intros H; [reflexivity|]. cbn [filter]. unfold eqb at 1. destruct (eq_dec x "log_prob") as [->|N]; [exfalso; apply H; now left|].
  cbn [negb]. f_equal. apply IH. intros Hx. apply H. now right.
Qed.
Lemma combine_fst {A B} (l : list A) (m : list B) : length l = length m -> map fst (combine l m) = l.
Proof. revert m. induction l as [|x l IH]; intros [|y m] H; try discriminate; [reflexivity|]. cbn. f_equal. apply IH. now injection H. Qed.
Lemma combine_snd {A B} (l : list A) (m : list B) : length l = length m -> map snd (combine l m) = m.
Proof. revert m. induction l as [|x l IH]; intros [|y m] H; try discriminate; [reflexivity|]. cbn. f_equal. apply IH. now injection H. Qed.
Lemma mapM_self {B} (l pre : list (string * B)) : NoDup (map fst (pre ++ l)) -> mapM (dget_r (pre ++ l)) (map fst l) = Ok (map snd l).
Proof.
  revert pre. induction l as [|(k & b) l IH]; intros pre N; [reflexivity|]. cbn [map fst snd mapM].
  assert (E : dget (pre ++ (k, b) :: l) k = Some b).
  { apply In_dget; [exact N|]. apply in_or_app. right. now left. }
  unfold dget_r at 1. rewrite E. cbn [bind]. specialize (IH (pre ++ [(k, b)])). rewrite <- app_assoc in IH. cbn [app] in IH. rewrite IH by exact N. reflexivity.
Qed.
Theorem to_df_rows f : wf_struct f -> stbl f <> [] -> ~ In "assignment" (svars f) -> ~ In "log_prob" (svars f) ->
  s_to_df f = Ok {| fr_cols := svars f ++ ["log_prob"]; fr_rows := map num_row (stbl f) |}.
Proof.
  intros W N Ha Hl. unfold s_to_df. rewrite (width_ok f W N), Nat.eqb_refl.
  set (keys := map fst (stbl f)). set (L := map (fun kv : list nat * val => CNum (snd kv)) (stbl f)).
  assert (E0 : forall X : res frame, forall k, (forall d, d = [("assignment", map CKey keys); ("log_prob", L)] -> k d = X) ->
    bind (match stbl f with [] => Err KeyError | _ => Ok [("assignment", map CKey keys); ("log_prob", L)] end) k = X).
  { intros X k H. destruct (stbl f) as [|x t] eqn:E; [congruence|]. cbn [bind]. now apply H. }
  apply E0. intros d ->. cbn [negb raise_if bind].
  set (cl := combine (svars f) (seq 0 (length (svars f)))).
  assert (Ef : map fst cl = svars f) by (apply combine_fst; now rewrite seq_length).
  assert (Es : map snd cl = seq 0 (length (svars f))) by (apply combine_snd; now rewrite seq_length).
  rewrite (dset_fresh (fun vj => map (fun k => key_cell k (snd vj)) keys) cl).
  2:{ rewrite Ef. apply (wf_vars f W). }
  2:{ rewrite Ef. intros v Hv [<-|[<-|[]]]; contradiction. }
  change (ddel ([("assignment", map CKey keys); ("log_prob", L)] ++ ?x) "assignment") with (Ok (("log_prob", L) :: x)). cbn [app].
  set (cs := map (fun vj : string * nat => (fst vj, map (fun k => key_cell k (snd vj)) keys)) cl).
  change (ddel (("assignment", map CKey keys) :: ("log_prob", L) :: cs) "assignment") with (Ok (("log_prob", L) :: cs)). cbn [bind].
  assert (Ecs : map fst cs = svars f) by (unfold cs; rewrite map_map; exact Ef).
  assert (Ecols : filter (fun c => negb (eqb c "log_prob")) (dkeys (("log_prob", L) :: cs)) = svars f).
  { unfold dkeys. cbn [map fst filter]. rewrite Ecs. unfold eqb at 1. destruct (eq_dec "log_prob" "log_prob") as [_|X]; [|congruence]. cbn [negb]. now apply filter_fresh. }
  rewrite Ecols. rewrite mapM_app.
  assert (Em : mapM (dget_r (("log_prob", L) :: cs)) (svars f) = Ok (map snd cs)).
  { rewrite <- Ecs. apply (mapM_self cs [("log_prob", L)]). cbn [app map fst]. rewrite Ecs. constructor; [exact Hl|apply (wf_vars f W)]. }
  rewrite Em. cbn [bind mapM]. unfold dget_r. cbn [dget]. destruct (eq_dec "log_prob" "log_prob") as [_|X]; [|congruence]. cbn [bind]. f_equal. f_equal.
  unfold keys. rewrite map_length. apply map_seq_nth. intros i (k & v) Hi. unfold num_row. cbn [fst snd]. rewrite map_app. cbn [map].
  f_equal; [|f_equal; unfold L; erewrite nth_error_nth; [reflexivity|]; rewrite nth_error_map, Hi; reflexivity].
  unfold cs. rewrite !map_map. cbn [snd].
  rewrite <- (key_cells k), (key_length f k v W (nth_error_In _ _ Hi)), <- Es, map_map. apply map_ext. intros vj.
  erewrite nth_error_nth; [reflexivity|]. unfold keys. rewrite nth_error_map, nth_error_map, Hi. reflexivity.
Qed.
Lemma num_row_inj r s : num_row r = num_row s -> r = s.
Proof.
  unfold num_row. intros H. apply app_inj_tail in H. destruct H as (H & V). destruct r as (k & v), s as (k' & v'). cbn [fst snd] in *. injection V as ->. f_equal.
  revert k' H. induction k as [|i k IH]; intros [|j k'] H; try discriminate; [reflexivity|]. injection H as Hi H. apply INR_eq in Hi. subst j. f_equal. now apply IH.
Qed.
Theorem to_df_lossless f g : wf_struct f -> wf_struct g -> stbl f <> [] -> stbl g <> [] -> ~ In "assignment" (svars f ++ svars g) -> ~ In "log_prob" (svars f ++ svars g) ->
  s_to_df f = s_to_df g -> svars f = svars g /\ stbl f = stbl g.
Proof.
  intros Wf Wg Nf Ng Ha Hl E. rewrite in_app_iff in Ha, Hl. rewrite to_df_rows, to_df_rows in E by tauto. injection E as Ev Er. apply app_inj_tail in Ev. split; [apply Ev|].
  revert Er. generalize (stbl f), (stbl g). intros l. induction l as [|x l IH]; intros [|y m] H; try discriminate; [reflexivity|]. cbn [map] in H. inversion H as [[H1 H2]].
  f_equal; [now apply num_row_inj|now apply IH].
Qed.
Theorem to_df_empty f : stbl f = [] -> s_to_df f = Err KeyError.
Proof. intros E. unfold s_to_df. now rewrite E. Qed.
