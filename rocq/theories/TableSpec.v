(** Specification vocabulary for discrete tables, independent of the model: an assignment of
    values to variable names is a function [env], a factor over names is read as a function
    of such an assignment. *)
From Verif Require Export SparseModel.

Notation env := (string -> nat) (only parsing).
Definition upd (e : env) (v : string) (i : nat) : env :=
  fun w => if string_dec w v then i else e w.

(** The sum of [g] over all values of the variables [vs] (variable [v] ranges over
    0 .. card v - 1), the other variables fixed by [e]. *)
Fixpoint sum_over (card : string -> nat) (vs : list string) (g : env -> R) (e : env) : R :=
  match vs with
  | [] => g e
  | v :: vs' => Rsum (map (fun i => sum_over card vs' g (upd e v i)) (seq 0 (card v)))
  end.

(** The log value a sparse factor gives to an assignment: the stored entry, or the default
    for assignments that are not stored. *)
Definition sval (f : sparse) (e : env) : val :=
  match dget (stbl f) (map e (svars f)) with Some v => v | None => sdef f end.
(** Its potential (probability weight). *)
Definition spot (f : sparse) (e : env) : R := pot (sval f e).

(** [v] is a variable of the factor with cardinality [c]. *)
Definition has_card (f : sparse) (v : string) (c : nat) : Prop :=
  In (v, c) (combine (svars f) (scards f)).
(** The cardinality of a variable in a factor (0 outside of the scope). *)
Definition card_of (f : sparse) (v : string) : nat :=
  match dget (combine (svars f) (scards f)) v with Some c => c | None => 0 end.
(** The assignment gives every variable of the factor a value below its cardinality. *)
Definition in_range (f : sparse) (e : env) : Prop :=
  forall v c, has_card f v c -> e v < c.

(** A well formed table: distinct variables, one cardinality per variable, every stored
    assignment has the right length and is in range, and no assignment is stored twice (a
    Python dict). *)
Record wf_struct (f : sparse) : Prop := {
  wf_vars : NoDup (svars f);
  wf_cards : length (scards f) = length (svars f);
  wf_keys : forall k v, In (k, v) (stbl f) -> Forall2 (fun i c => i < c) k (scards f);
  wf_nodup : NoDup (dkeys (stbl f)) }.
(** A well formed sparse factor: moreover every stored log value stands for a finite weight
    (it is a real number or -inf). *)
Record wf_sparse (f : sparse) : Prop := {
  wf_s :> wf_struct f;
  wf_vals : forall k v, In (k, v) (stbl f) -> is_lp v }.

(** Missing entries mean probability zero. *)
Definition zero_default (f : sparse) : Prop := sdef f = NInf.

(** The variables shared by two factors have the same cardinality in both. *)
Definition cards_agree (f g : sparse) : Prop :=
  forall v c c', has_card f v c -> has_card g v c' -> c = c'.

(** The total weight of a factor: the sum of its potential over all assignments. *)
Definition weight_of (f : sparse) : R := sum_over (card_of f) (svars f) (spot f) (fun _ => 0).

(** One term p log(p/q) of a Kullback-Leibler divergence, with 0 log 0 = 0 (only used where
    q > 0 whenever p > 0). *)
Definition kl_term (p q : R) : R := if Req_EM_T p 0 then 0%R else (p * ln (p / q))%R.
(** The Kullback-Leibler divergence of the distribution proportional to [f] from the one
    proportional to [g] (same scope). *)
Definition kl_of (f g : sparse) : R :=
  sum_over (card_of f) (svars f)
    (fun e => kl_term (spot f e / weight_of f) (spot g e / weight_of g)) (fun _ => 0).
(** The number of assignments to the scope of a factor. *)
Definition n_assignments (f : sparse) : nat := fold_right Nat.mul 1 (scards f).
