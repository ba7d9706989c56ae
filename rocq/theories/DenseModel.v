(** Model of veroku/factors/categorical.py (class Categorical), function by function.
    [isinstance] checks are discharged by typing; warnings are not modelled. *)
From Coq Require Import ZArith.
From Verif Require Export Numpy.

(** Assignment names: ints by default, or strings. *)
Inductive aname := AInt (n : nat) | AStr (s : string).
#[global] Instance eqdec_aname : EqDec aname.
Proof. unfold EqDec; decide equality; apply eq_dec. Defined.

(** categorical.py:112-146 (attributes of a Categorical). *)
Record dense := {
  dvars : list string;
  dtens : tensor val;                       (* log_probs_tensor *)
  dcards : list nat;                        (* cardinalities *)
  dnames : dict string (list aname) }.      (* vars_assignments_names_dict *)

(** categorical.py:128 var_cards. *)
Definition d_var_cards (f : dense) : dict string nat := dict_of (combine (dvars f) (dcards f)).

(** categorical.py:134-142: the given assignment names are checked against the
    cardinalities. *)
Definition names_given (vars : list string) (cards : list nat) (names : list (list aname))
  : res (dict string (list aname)) :=
  let* _ := py_assert (Nat.eqb (length names) (length vars)) in
  foldM (fun d vnc =>
           let '(v, (ns, c)) := vnc in
           let* _ := py_assert (Nat.eqb c (length (dedup ns))) in Ok (dset d v ns))
        (combine vars (combine names cards)) [].
(** categorical.py:143-144: default names. *)
Definition names_default (vars : list string) (cards : list nat) : dict string (list aname) :=
  dict_of (map (fun vc => (fst vc, map AInt (seq 0 (snd vc)))) (combine vars cards)).
Definition mk_names (vars : list string) (cards : list nat) (names : option (list (list aname)))
  : res (dict string (list aname)) :=
  match names with Some ns => names_given vars cards ns | None => Ok (names_default vars cards) end.

(** categorical.py:60-146 and _factor.py:18-29: construction from a tensor ([cardinalities]
    None or given; when given they are not compared with the tensor's shape). *)
Definition mk_dense (vars : list string) (cards : option (list nat)) (t : tensor val)
    (names : option (list (list aname))) : res dense :=
  let* _ := raise_if (negb (nodupb vars)) ValueError in
  let cs := match cards with Some c => c | None => tshape t end in
  let* _ := match cards with
            | Some c => raise_if (negb (Nat.eqb (length c) (length vars))) ValueError
            | None => Ok tt end in
  let* _ := raise_if (negb (Nat.eqb (ndim t) (length vars))) ValueError in
  let* ns := mk_names vars cs names in
  Ok {| dvars := vars; dtens := t; dcards := cs; dnames := ns |}.

(** categorical.py:112-124: construction from [probs_table]. *)
Definition mk_dense_probs (vars : list string) (cards : list nat) (p : dict (list nat) R)
    (names : option (list (list aname))) : res dense :=
  let* _ := raise_if (negb (nodupb vars)) ValueError in
  let* _ := raise_if (negb (Nat.eqb (length cards) (length vars))) ValueError in
  let* t := foldM (fun t kp => tset t (fst kp) (snd kp)) p (tconst cards 0%R) in
  let* ns := mk_names vars cards names in
  Ok {| dvars := vars; dtens := tmap rlog t; dcards := cards; dnames := ns |}.

(** The list [[self.vars_assignments_names_dict[v] for v in vs]] (e.g. 183). *)
Definition names_of (d : dict string (list aname)) (vs : list string) : res (list (list aname)) :=
  mapM (dget_r d) vs.

(** categorical.py:206-218 copy. *)
Definition d_copy (f : dense) : res dense :=
  let* ns := names_of (dnames f) (dvars f) in mk_dense (dvars f) None (dtens f) (Some ns).

(** categorical.py:148-184 reorder. *)
Definition d_reorder (f : dense) (order : list string) : res dense :=
  if eqb order (dvars f) then d_copy f else
  let* _ := raise_if (negb (seteqb order (dvars f))) ValueError in
  let* idx := mapM (py_index (dvars f)) order in
  let* t := transpose (dtens f) idx in
  let* ns := names_of (dnames f) order in
  mk_dense order None t (Some ns).

(** categorical.py:220-265 tensor_operation. *)
Definition tensor_operation (ta tb : tensor val) (va vb : list string) (f : val -> val -> val)
  : res (tensor val * list string) :=
  if eqb va vb then let* t := tbin f ta tb in Ok (t, va) else
  let common := set_inter va vb in
  let rem1 := filter (fun v => negb (mem v common)) va in
  let rem2 := filter (fun v => negb (mem v common)) vb in
  let common' := filter (fun v => mem v common) va in
  let* o1 := mapM (py_index va) rem1 in
  let* o1' := mapM (py_index va) common' in
  let* t1 := transpose ta (o1 ++ o1') in
  let t1' := expand_dims t1 (seq 0 (length rem2)) in
  let* o2 := mapM (py_index vb) rem2 in
  let* o2' := mapM (py_index vb) common' in
  let* t2 := transpose tb (o2 ++ o2') in
  let t2' := expand_dims t2 (seq (length rem2) (length rem1)) in
  let* t := tbin f t1' t2' in
  Ok (t, rem2 ++ rem1 ++ common').

(** categorical.py:42-52 _check_consistent_assignment_names (the order of the union set only
    decides which variable the message names). *)
Definition check_names (a b : dict string (list aname)) : res unit :=
  foldM (fun _ v =>
           match dget a v, dget b v with
           | Some x, Some y => raise_if (negb (eqb x y)) InconsistentAssignmentNamesError
           | _, _ => Ok tt
           end) (dedup (dkeys a ++ dkeys b)) tt.

(** categorical.py:307-318 _assert_consistent_cardinalities. *)
Definition d_assert_cards (a b : dense) : res unit :=
  foldM (fun _ v =>
           match dget (d_var_cards b) v with
           | None => Ok tt
           | Some cb => let* ca := dget_r (d_var_cards a) v in py_assert (Nat.eqb ca cb)
           end) (dvars a) tt.

(** [d.update(d')]. *)
Definition dupdate {V} (d d' : dict string V) : dict string V :=
  fold_left (fun d kv => dset d (fst kv) (snd kv)) d' d.

(** categorical.py:320-344 multiply. *)
Definition d_multiply (a b : dense) : res dense :=
  let* _ := d_assert_cards a b in
  let* tv := tensor_operation (dtens a) (dtens b) (dvars a) (dvars b) vadd in
  let* _ := check_names (dnames a) (dnames b) in
  let* ns := names_of (dupdate (dnames a) (dnames b)) (snd tv) in
  mk_dense (snd tv) None (fst tv) (Some ns).

(** categorical.py:378-398 divide. *)
Definition d_divide (a b : dense) : res dense :=
  let* _ := d_assert_cards a b in
  let* tv := tensor_operation (dtens a) (dtens b) (dvars a) (dvars b) vsub in
  let* _ := check_names (dnames a) (dnames b) in
  let* ns := names_of (dnames a) (snd tv) in
  mk_dense (snd tv) None (fst tv) (Some ns).

(** categorical.py:346-376 cancel: the positions where both tensors hold -inf are found by
    comparing the two tensors axis by axis, without aligning the variable names. *)
Definition d_cancel (a b : dense) : res dense :=
  let* mask := tbin (fun y x => veqb y NInf && veqb x NInf) (dtens b) (dtens a) in
  let* aug := tset_where (dtens b) mask (Fin 0) in
  let* tv := tensor_operation (dtens a) aug (dvars a) (dvars b) vsub in
  let* _ := check_names (dnames a) (dnames b) in
  let* ns := names_of (dnames a) (snd tv) in
  mk_dense (snd tv) None (fst tv) (Some ns).

(** _factor.py:49-62 get_marginal_vars. *)
Definition d_marginal_vars (o : oracle) (vars vrs : list string) (keep : bool) : list string :=
  if keep then vrs else so o (set_diff vars vrs).

(** categorical.py:267-283 marginalize. *)
Definition d_marginalize (o : oracle) (f : dense) (vrs : list string) (keep : bool) : res dense :=
  let kept := d_marginal_vars o (dvars f) vrs keep in
  let out := filter (fun v => negb (mem v kept)) (dvars f) in
  let* idx := mapM (py_index (dvars f)) out in
  let* t := lse_axes (dtens f) idx in
  let* ns := names_of (dnames f) kept in
  mk_dense kept None (squeeze t) (Some ns).

(** categorical.py:285-305 reduce. *)
Definition d_reduce (f : dense) (vrs : list string) (values : list Z) : res dense :=
  let unobs := filter (fun v => negb (mem v vrs)) (dvars f) in
  let obs := dict_of (combine vrs values) in
  let* t := tindex (dtens f) (map (dget obs) (dvars f)) in
  let* ns := names_of (dnames f) unobs in
  mk_dense unobs None t (Some ns).

(** categorical.py:501-511 potential; the result is the array indexed by the assignment (0-d
    when the assignment covers all variables). *)
Definition d_potential (f : dense) (vrs : list string) (a : list Z) : res (tensor val) :=
  let* _ := py_assert (seteqb vrs (dvars f)) in
  let obs := dict_of (combine vrs a) in
  let* t := tindex (dtens f) (map (dget obs) (dvars f)) in
  Ok (tmap vexp t).

(** categorical.py:400-411, 413-424 argmax, argmax_assignment_names. *)
Definition d_argmax (f : dense) : res (list nat) := targmax (dtens f).
Definition d_argmax_names (f : dense) : res (list aname) :=
  let* a := targmax (dtens f) in
  mapM (fun vi => let* ns := dget_r (dnames f) (fst vi) in py_nth ns (snd vi)) (combine (dvars f) a).

(** categorical.py:426-436 normalize. *)
Definition d_normalize (f : dense) : res dense :=
  let* c := d_copy f in
  let* z := logsumexp (telems (dtens f)) in
  Ok {| dvars := dvars c; dtens := tmap (fun x => vsub x z) (dtens c); dcards := dcards c;
        dnames := dnames c |}.

(** categorical.py:438-452 _raw_kld. *)
Definition d_raw_kld (log_p log_q : tensor val) : res val :=
  let* t := tbin (fun p q => if vneb p NInf then vmul (vexp p) (vsub p q) else Fin 0) log_p log_q in
  Ok (vsum (telems t)).

(** categorical.py:476-482: the clamping of small negative values (the default rtol of
    np.isclose is 1e-5). *)
Definition d_clamp_kld (kld : val) : res val :=
  if vltb kld (Fin 0) then
    if visclose kld (Fin 0) (1/100000) (1/10000) then Ok (Fin 0) else Err ValueError
  else Ok kld.

(** categorical.py:454-482 kl_divergence. *)
Definition d_kl_divergence (p q : dense) (normalize_factor : bool) : res val :=
  let* _ := check_names (dnames p) (dnames q) in
  let* np := d_normalize p in
  let* np' := d_reorder np (dvars q) in
  let* q' := if normalize_factor then d_normalize q else Ok q in
  let* kld := d_raw_kld (dtens np') (dtens q') in
  d_clamp_kld kld.

(** categorical.py:484-499 distance_from_vacuous. *)
Definition d_distance_from_vacuous (f : dense) : res val :=
  let u := vopp (rlog (INR (fold_right Nat.mul 1 (tshape (dtens f))))) in
  let* ns := names_of (dnames f) (dvars f) in
  let* uf := mk_dense (dvars f) None (tconst (tshape (dtens f)) u) (Some ns) in
  d_kl_divergence f uf false.

(** categorical.py:186-204 equals ([np.allclose] broadcasts its arguments). *)
Definition d_equals (f g : dense) (rtol atol : R) : res bool :=
  if negb (seteqb (dvars f) (dvars g)) then Ok false else
  let* g' := d_reorder g (dvars f) in
  let* t := tbin (fun x y => visclose x y rtol atol) (dtens f) (dtens g') in
  Ok (forallb (fun b => b) (telems t)).
