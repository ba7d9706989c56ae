(** Specification vocabulary for dense tables, independent of the model's helpers: the same
    named-assignment reading as in TableSpec.v. *)
From Verif Require Export TableSpec DenseModel.

(** The log value and the potential a dense factor gives to a named assignment. *)
Definition dval (f : dense) (e : env) : val := tget (dtens f) (map e (dvars f)).
Definition dpot (f : dense) (e : env) : R := pot (dval f e).

(** [v] is a variable of the factor whose axis has length [c]. *)
Definition d_has_card (f : dense) (v : string) (c : nat) : Prop :=
  In (v, c) (combine (dvars f) (tshape (dtens f))).
Definition d_card_of (f : dense) (v : string) : nat :=
  match dget (combine (dvars f) (tshape (dtens f))) v with Some c => c | None => 0 end.
Definition d_in_range (f : dense) (e : env) : Prop := forall v c, d_has_card f v c -> e v < c.

(** A well formed dense factor: distinct variables, one axis per variable, the recorded
    cardinalities are the axis lengths, and there is one tuple of assignment names per
    variable with as many distinct names as the axis is long. *)
Record wf_shape (f : dense) : Prop := {
  ws_vars : NoDup (dvars f);
  ws_ndim : length (tshape (dtens f)) = length (dvars f);
  ws_cards : dcards f = tshape (dtens f);
  ws_keys : dkeys (dnames f) = dvars f;
  ws_names : forall v ns c, dget (dnames f) v = Some ns -> d_has_card f v c ->
             length (dedup ns) = c }.
(** Moreover every entry stands for a finite weight (a real number or -inf). *)
Record wf_dense (f : dense) : Prop := {
  wd_s :> wf_shape f;
  wd_vals : forall e, d_in_range f e -> is_lp (dval f e) }.

(** The variables shared by two factors have axes of the same length, resp. the same
    assignment names. *)
Definition d_cards_agree (f g : dense) : Prop :=
  forall v c c', d_has_card f v c -> d_has_card g v c' -> c = c'.
Definition names_agree (f g : dense) : Prop :=
  forall v ns ns', dget (dnames f) v = Some ns -> dget (dnames g) v = Some ns' -> ns = ns'.

(** Total weight, Kullback-Leibler divergence of the normalised factors. *)
Definition d_weight_of (f : dense) : R := sum_over (d_card_of f) (dvars f) (dpot f) (fun _ => 0).
Definition d_kl_of (f g : dense) : R :=
  sum_over (d_card_of f) (dvars f)
    (fun e => kl_term (dpot f e / d_weight_of f) (dpot g e / d_weight_of g)) (fun _ => 0).
Definition d_n_assignments (f : dense) : nat := fold_right Nat.mul 1 (tshape (dtens f)).

(** Lexicographic order on assignments (of the same length). *)
Fixpoint lex_lt (k l : list nat) : Prop :=
  match k, l with
  | i :: k', j :: l' => i < j \/ i = j /\ lex_lt k' l'
  | _, _ => False
  end.
