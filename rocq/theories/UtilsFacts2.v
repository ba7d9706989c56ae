(** Proofs about get_subset_evidence, and examples for the helper functions. *)
From Verif Require Export UtilsFacts GraphModel.

Definition ev_pairs {V} (ev : dict string V) (vars : list string) : list (string * V) :=
  flat_map (fun v => match dget ev v with Some x => [(v, x)] | None => [] end) vars.
Lemma dict_of_snoc {V} (l : list (string * V)) k v : dict_of (l ++ [(k, v)]) = dset (dict_of l) k v.
Proof. unfold dict_of. now rewrite fold_left_app. Qed.
Lemma subset_evidence_spec {V} (ev : dict string V) vars vrs vals : subset_evidence ev vars = (vrs, vals) ->
  NoDup vrs /\ sublist vrs vars /\ (forall v, In v vrs <-> In v vars /\ In v (dkeys ev)) /\
  length vals = length vrs /\
  (forall i v, nth_error vrs i = Some v -> nth_error vals i = dget ev v).
Proof.
  unfold subset_evidence. fold (ev_pairs ev vars). intros [= <- <-].
  assert (P : forall vs d, d = dict_of (ev_pairs ev vs) ->
    NoDup (dkeys d) /\ sublist (dkeys d) vs /\ (forall v, In v (dkeys d) <-> In v vs /\ In v (dkeys ev)) /\
    (forall k v, In (k, v) d -> dget ev k = Some v)).
  { induction vs as [|x vs IH] using rev_ind; intros d ->.
    - cbn. split; [constructor|]. split; [constructor|]. split; [tauto|]. intros ? ? [].
    - destruct (IH _ eq_refl) as (H1 & H2 & H3 & H4). clear IH. unfold ev_pairs in *. rewrite flat_map_app. cbn [flat_map].
      set (d := dict_of (flat_map (fun v => match dget ev v with Some x0 => [(v, x0)] | None => [] end) vs)) in *.
      destruct (dget ev x) as [y|] eqn:Ey.
      + cbn [app]. rewrite dict_of_snoc. fold d. assert (Hx : In x (dkeys ev)) by (eapply dget_Some_key; exact Ey).
        split; [now apply NoDup_dset|]. destruct (in_dec string_dec x (dkeys d)) as [Hin|Hin].
        * assert (E : dset d x y = d).
          { clear - H1 H4 Hin Ey. induction d as [|[k v] d IH]; [destruct Hin|]. cbn [dset].
            destruct (eq_dec x k) as [->|Hne].
            - f_equal. f_equal. specialize (H4 k v (or_introl eq_refl)). congruence.
            - f_equal. apply IH; [now inversion H1| |].
              + intros k' v' H. apply H4. now right.
              + destruct Hin as [Hin|Hin]; [cbn in Hin; congruence|exact Hin]. }
          rewrite E. split; [rewrite <- (app_nil_r (dkeys d)); apply sublist_app; [exact H2|apply sublist_nil]|].
          split; [|exact H4]. intros v. rewrite H3, in_app_iff. cbn. split; [tauto|].
          intros [[H|[<-|[]]] H']; [tauto|]. now apply H3.
        * rewrite (dset_new d x y Hin). unfold dkeys. rewrite map_app. cbn [map fst].
          split; [apply sublist_app; [exact H2|apply sublist_refl]|]. split.
          -- intros v. rewrite !in_app_iff. cbn. fold (dkeys d). rewrite H3. split; [intros [[]|[<-|[]]]; auto|].
             intros [[H|[<-|[]]] H']; auto.
          -- intros k v H. apply in_app_iff in H. destruct H as [H|[[= <- <-]|[]]]; [now apply H4|exact Ey].
      + cbn [app]. rewrite app_nil_r. fold d. split; [exact H1|].
        split; [rewrite <- (app_nil_r (dkeys d)); apply sublist_app; [exact H2|apply sublist_nil]|]. split; [|exact H4].
        intros v. rewrite H3, in_app_iff. cbn. split; [tauto|]. intros [[H|[<-|[]]] H']; [tauto|].
        apply dget_None in Ey. contradiction. }
  destruct (P vars _ eq_refl) as (H1 & H2 & H3 & H4). split; [exact H1|]. split; [exact H2|]. split; [exact H3|].
  unfold dkeys, dvals. rewrite !map_length. split; [reflexivity|]. intros i v Hi.
  rewrite nth_error_map in *. destruct (nth_error (dict_of (ev_pairs ev vars)) i) as [[k y]|] eqn:E; [|discriminate].
  cbn in *. injection Hi as <-. symmetry. apply H4. eapply nth_error_In. exact E.
Qed.
Lemma sublist_In {A} (m l : list A) x : sublist m l -> In x m -> In x l.
Proof. induction 1; cbn; intuition. Qed.
Lemma subset_evidence_nodup {V} (ev : dict string V) vars vrs vals : NoDup vars -> subset_evidence ev vars = (vrs, vals) ->
  vrs = filter (fun v => dmem ev v) vars.
Proof.
  intros Hn H. destruct (subset_evidence_spec ev vars vrs vals H) as (H1 & H2 & H3 & _).
  assert (H3' : forall v, In v vrs <-> In v vars /\ dmem ev v = true) by (intros v; rewrite H3, <- dmem_In; tauto).
  clear H H3. revert H3'. induction H2 as [|x m l Hs IH|x m l Hs IH]; intros H3; [reflexivity| |]; cbn [filter].
  - inversion Hn as [|? ? Hx Hl]; subst. destruct (dmem ev x) eqn:D.
    + exfalso. apply Hx. eapply sublist_In; [exact Hs|]. apply H3. split; [now left|exact D].
    + apply IH; [exact Hl|exact H1|]. intros v. rewrite H3. cbn. split; [|tauto].
      intros [[<-|H] D']; [congruence|auto].
  - inversion Hn as [|? ? Hx Hl]; subst. inversion H1 as [|? ? Hx' Hm]; subst.
    destruct (proj1 (H3 x) (or_introl eq_refl)) as [_ D]. rewrite D. f_equal. apply IH; [exact Hl|exact Hm|].
    intros v. split.
    + intros Hv. destruct (proj1 (H3 v) (or_intror Hv)) as [[<-|H] D']; [contradiction|auto].
    + intros [Hv D']. destruct (proj2 (H3 v) (conj (or_intror Hv) D')) as [<-|H]; [contradiction|exact H].
Qed.

(** * Examples *)
(** The example of the docstring of indexed_square_matrix_operation (with the three names it
    means), 11 12 13 / 21 22 23 / 31 32 33 and 11 13 / 31 33. *)
Definition ix_a : mat := Mat 3 3 (fun i j => INR (10 * S i + S j)).
Definition ix_b : mat := Mat 2 2 (fun i j => INR (10 * S (2 * i) + S (2 * j))).
Definition ix_c : mat := Mat 2 2 (fun i j => INR (S (i + j))).
Lemma ix_example : exists r nv,
  indexed_square_matrix_operation ix_c ix_b ["b"; "a"]%string ["c"; "b"]%string Rminus = Ok (r, nv) /\
  nv = ["a"; "b"; "c"]%string /\ ent r 0 1 = INR 2 /\ ent r 0 2 = 0%R /\ ent r 1 1 = (INR 1 - INR 33)%R.
Proof.
  rewrite ix_square_ok by reflexivity. eexists. eexists. split; [reflexivity|]. split; [vm_compute; reflexivity|].
  change (new_vars ["b"; "a"]%string ["c"; "b"]%string) with ["a"; "b"; "c"]%string. cbn [ent nth].
  unfold named_entry. cbn [index_opt option_map]. repeat split.
  - change (index_opt "a"%string ["b"; "a"]%string) with (Some 1). cbn. ring.
  - cbn. ring.
Qed.
