(** Model of veroku/factors/sparse_categorical.py (class SparseCategorical and its module
    functions), function by function.  Type checks with [isinstance] (TypeError) are
    discharged by typing and not repeated; objects are immutable values. *)
From Verif Require Export LogVal.

(** Assignments are tuples of ints; simplification: non-negative ints. *)
Notation key := (list nat) (only parsing).
(** log_probs_table: dict from assignment to log probability. *)
Notation table := (dict key val) (only parsing).
(** Nested table dictionaries ("ntd"): outer assignment -> inner table. *)
Notation ntd := (dict key table) (only parsing).

(** sparse_categorical.py:415-425 (attributes of a SparseCategorical). *)
Record sparse := { svars : list string; scards : list nat; stbl : table; sdef : val }.

(** sparse_categorical.py:423 [self.var_cards = dict(zip(var_names, cardinalities))]. *)
Definition zip_cards (vars : list string) (cards : list nat) : dict string nat :=
  dict_of (combine vars cards).
Definition var_cards (f : sparse) : dict string nat := zip_cards (svars f) (scards f).

(** _factor.py:18-29 and sparse_categorical.py:380-425: duplicate variables and length
    mismatch raise ValueError.  [log_probs_table] is given (the code copies it, 364-372). *)
Definition mk_sparse (vars : list string) (cards : list nat) (t : table) (d : val) : res sparse :=
  if negb (nodupb vars) then Err ValueError
  else if negb (Nat.eqb (length cards) (length vars)) then Err ValueError
  else Ok {| svars := vars; scards := cards; stbl := t; sdef := d |}.

(** sparse_categorical.py:420-421: construction from [probs_table]. *)
Definition mk_sparse_probs (vars : list string) (cards : list nat) (p : dict key R) (d : val)
  : res sparse :=
  mk_sparse vars cards (map (fun kv => (fst kv, rlog (snd kv))) p) d.

(** sparse_categorical.py:493-505. *)
Definition s_copy (f : sparse) : res sparse := mk_sparse (svars f) (scards f) (stbl f) (sdef f).

(** sparse_categorical.py:122-124: the permuted row, started as [None]*len. *)
Definition fill_row (idx : list nat) (a : key) : res (list (option nat)) :=
  foldM (fun row oi => let* x := py_nth a (fst oi) in list_set row (snd oi) (Some x))
        (combine (seq 0 (length idx)) idx) (repeat None (length a)).

(** Reading a completed row as an assignment.  A row position that was never written keeps
    None in Python; this only happens for an assignment longer than the scope (an ill-formed
    factor) and is reported here as TypeError. *)
Definition row_key (row : list (option nat)) : res key :=
  mapM (fun x => match x with Some n => Ok n | None => Err TypeError end) row.

(** sparse_categorical.py:91-130 _get_nested_sorted_probs. *)
Definition get_nested (outer inner old : list string) (t : table) : res ntd :=
  let order := outer ++ inner in
  let* idx := mapM (py_index order) old in
  foldM (fun (nt : ntd) (kv : key * val) =>
           let* row := fill_row idx (fst kv) in
           let* l1 := row_key (firstn (length outer) row) in
           let* l2 := row_key (skipn (length outer) row) in
           Ok (dset nt l1 (dset (dget_or nt l1 []) l2 (snd kv))))
        t [].

(** sparse_categorical.py:133-151 _same_scope_binary_operation. *)
Definition same_scope_op (o : oracle) (f : val -> val -> val) (default : val) (ta tb : table)
  : table :=
  let keys := ko o (dedup (dkeys ta ++ dkeys tb)) in
  let nd := f default default in
  fold_left (fun r k =>
               let rv := f (dget_or ta k default) (dget_or tb k default) in
               if vneb rv nd then dset r k rv else r) keys [].

(** sparse_categorical.py:154-162 _flatten_ntd. *)
Definition flatten_ntd (nt : ntd) : table :=
  fold_left (fun r okv =>
               fold_left (fun r' ikv => dset r' (fst okv ++ fst ikv) (snd ikv)) (snd okv) r)
            nt [].

(** [ntd.get(assign, default_sub_table)] where the default may be None; the result is then
    used through [.keys()], which raises AttributeError on None. *)
Definition sub_or (nt : ntd) (k : key) (d : option table) : res table :=
  match dget nt k with
  | Some s => Ok s
  | None => match d with Some s => Ok s | None => Err AttributeError end
  end.

(** sparse_categorical.py:165-203 _apply_any_scope_binary_opp. *)
Definition apply_any_scope (o : oracle) (na nb : ntd) (da db : option table)
    (combos : list (key * key)) (f : val -> val -> val) (default : val) : res ntd :=
  foldM (fun (r : ntd) (ab : key * key) =>
           let* sa := sub_or na (fst ab) da in
           let* sb := sub_or nb (snd ab) db in
           let s := same_scope_op o f default sa sb in
           match s with
           | [] => Ok r
           | _ => Ok (dset r (fst ab ++ snd ab) s)
           end) combos [].

(** sparse_categorical.py:41-66 _make_dense_default_probs_dict.  For an empty list of
    cardinalities [np.product] returns the float 1.0 and [list * numpy.float64] raises
    TypeError. *)
Definition make_dense_default (cards : list nat) (d : val) : res table :=
  match cards with
  | [] => Err TypeError
  | _ => Ok (map (fun a => (a, d)) (assignments cards))
  end.

(** sparse_categorical.py:69-88 _make_inner_dense.  The iterator
    [all_inner_table_assignments] is exhausted by the first outer assignment, so only the
    first inner table is completed. *)
Definition complete_inner (all : list key) (d : val) (s : table) : table :=
  fold_left (fun s k => if dmem s k then s else dset s k d) all s.
Definition make_inner_dense (nt : ntd) (inner_cards : list nat) (d : val) : ntd :=
  match nt with
  | [] => []
  | (k, s) :: rest => (k, complete_inner (assignments inner_cards) d s) :: rest
  end.

(** sparse_categorical.py:206-240 _any_scope_bin_opp_none. *)
Definition any_scope_none (o : oracle) (na nb : ntd) (ca cb : list nat * list nat)
    (f : val -> val -> val) (default : val) : res ntd :=
  let* da := make_dense_default (snd ca) default in
  let* db := make_dense_default (snd cb) default in
  apply_any_scope o (make_inner_dense na (snd ca) default) (make_inner_dense nb (snd cb) default)
    (Some da) (Some db) (list_prod (assignments (fst ca)) (assignments (fst cb))) f default.

(** sparse_categorical.py:243-302 _any_scope_bin_opp_both. *)
Definition any_scope_both (o : oracle) (na nb : ntd) (ca cb : list nat * list nat)
    (f : val -> val -> val) (default : val) : res ntd :=
  let outer := ko o (dedup (dkeys na ++ dkeys nb)) in
  let* da := make_dense_default (snd ca) default in
  let* db := make_dense_default (snd cb) default in
  apply_any_scope o na nb (Some da) (Some db) (list_prod outer outer) f default.

(** sparse_categorical.py:305-361 _any_scope_binary_operation. *)
Inductive default_rule := RuleAny | RuleBoth | RuleNone | RuleOther.
Definition any_scope_op (o : oracle) (na : ntd) (ca : list nat * list nat) (nb : ntd)
    (cb : list nat * list nat) (f : val -> val -> val) (default : val) (rule : default_rule)
  : res ntd :=
  match rule with
  | RuleNone => any_scope_none o na nb ca cb f default
  | RuleBoth => any_scope_both o na nb ca cb f default
  | RuleAny => apply_any_scope o na nb None None (list_prod (dkeys na) (dkeys nb)) f default
  | RuleOther => Err ValueError
  end.

(** sparse_categorical.py:570-579 _assert_consistent_cardinalities. *)
Definition assert_cards (a b : sparse) : res unit :=
  foldM (fun _ v =>
           match dget (var_cards b) v with
           | None => Ok tt
           | Some cb => let* ca := dget_r (var_cards a) v in py_assert (Nat.eqb ca cb)
           end) (svars a) tt.

(** sparse_categorical.py:693-694 vars_to_cards. *)
Definition vars_to_cards (d : dict string nat) (vs : list string) : res (list nat) :=
  mapM (dget_r d) vs.

(** [{**d1, **d2}] (714). *)
Definition dict_union (d1 d2 : dict string nat) : dict string nat :=
  fold_left (fun d kv => dset d (fst kv) (snd kv)) d2 d1.

(** sparse_categorical.py:645-724 _apply_binary_operator. *)
Definition apply_binop (o : oracle) (a b : sparse) (f : val -> val -> val) (rule : default_rule)
  : res sparse :=
  let* _ := assert_cards a b in
  let inter := ssort (so o (set_inter (svars a) (svars b))) in
  let rem_a := so o (set_diff (svars a) inter) in
  let* na := get_nested rem_a inter (svars a) (stbl a) in
  let rem_b := so o (set_diff (svars b) inter) in
  let* nb := get_nested rem_b inter (svars b) (stbl b) in
  let* _ := raise_if (vneb (sdef a) (sdef b)) NotImplementedError in
  let d := sdef a in
  let* ca_o := vars_to_cards (var_cards a) rem_a in
  let* ca_i := vars_to_cards (var_cards a) inter in
  let* cb_o := vars_to_cards (var_cards b) rem_b in
  let* cb_i := vars_to_cards (var_cards b) inter in
  let* nt := any_scope_op o na (ca_o, ca_i) nb (cb_o, cb_i) f d rule in
  let vars := rem_a ++ rem_b ++ inter in
  let* cards := vars_to_cards (dict_union (var_cards a) (var_cards b)) vars in
  mk_sparse vars cards (flatten_ntd nt) (f d d).

(** sparse_categorical.py:604-607 special_divide. *)
Definition special_divide (x y : val) : val :=
  if veqb x NInf && veqb y NInf then NInf else vsub x y.

(** sparse_categorical.py:581-592, 594-609, 611-620. *)
Definition s_multiply (o : oracle) (a b : sparse) : res sparse := apply_binop o a b vadd RuleAny.
Definition s_cancel (o : oracle) (a b : sparse) : res sparse :=
  apply_binop o a b special_divide RuleAny.
Definition s_divide (o : oracle) (a b : sparse) : res sparse := apply_binop o a b vsub RuleNone.

(** _factor.py:49-62 get_marginal_vars ([vrs] a list; a single string is wrapped by the
    caller). *)
Definition marginal_vars (o : oracle) (vars vrs : list string) (keep : bool) : list string :=
  if keep then vrs else so o (set_diff vars vrs).

(** sparse_categorical.py:507-540 marginalize. *)
Definition s_marginalize (o : oracle) (f : sparse) (vrs : list string) (keep : bool) : res sparse :=
  let kept := marginal_vars o (svars f) vrs keep in
  let out := filter (fun v => negb (mem v kept)) (svars f) in
  let* nt := get_nested kept out (svars f) (stbl f) in
  let* t := foldM (fun (r : table) (os : key * table) =>
                     let* p := logsumexp (dvals (snd os)) in Ok (dset r (fst os) p)) nt [] in
  let* _ := foldM (fun d v => ddel d v) out (var_cards f) in
  let* cards := vars_to_cards (var_cards f) kept in
  mk_sparse kept cards t NInf.

(** sparse_categorical.py:542-568 reduce. *)
Definition s_reduce (f : sparse) (vrs : list string) (values : key) : res sparse :=
  let unobs := filter (fun v => negb (mem v vrs)) (svars f) in
  let* nt := get_nested vrs unobs (svars f) (stbl f) in
  let* t := dget_r nt values in
  let* vc := foldM (fun d v => ddel d v) vrs (var_cards f) in
  mk_sparse unobs (dvals vc) t NInf.

(** sparse_categorical.py:622-629 argmax: Python's [max] keeps the first maximal item;
    ValueError on an empty table. *)
Definition s_argmax (f : sparse) : res key :=
  match stbl f with
  | [] => Err ValueError
  | kv :: rest =>
      Ok (fst (fold_left (fun best x => if vltb (snd best) (snd x) then x else best) rest kv))
  end.

(** sparse_categorical.py:726-738 normalize. *)
Definition s_normalize (f : sparse) : res sparse :=
  let* c := s_copy f in
  let* logz := logsumexp (dvals (stbl c)) in
  Ok {| svars := svars c; scards := scards c;
        stbl := map (fun kv => (fst kv, vsub (snd kv) logz)) (stbl c); sdef := sdef c |}.

(** sparse_categorical.py:846-853 weight. *)
Definition s_weight (f : sparse) : res val :=
  let* w := logsumexp (dvals (stbl f)) in Ok (vexp w).

(** sparse_categorical.py:740-751 _is_dense. *)
Definition nprod (l : list nat) : nat := fold_right Nat.mul 1 l.
Definition s_is_dense (f : sparse) : bool := Nat.eqb (length (stbl f)) (nprod (scards f)).

(** sparse_categorical.py:764-771 kld_from_log_elements. *)
Definition kld_elem (p q : val) : val :=
  if veqb p NInf then Fin 0 else vmul (vexp p) (vsub p q).

(** sparse_categorical.py:753-779 _raw_kld. *)
Definition s_raw_kld (o : oracle) (p q : sparse) : res val :=
  let* k := apply_binop o p q kld_elem RuleNone in
  Ok (vsum (dvals (stbl k))).

(** The clamping at the end of kl_divergence (800-808 and categorical.py:476-482). *)
Definition clamp_kld (kld : val) : res val :=
  if vltb kld (Fin 0) then
    if visclose kld (Fin 0) (1/100000) (1/10000) then Ok (Fin 0) else Err ValueError
  else Ok kld.

(** sparse_categorical.py:781-808 kl_divergence. *)
Definition s_kl_divergence (o : oracle) (p q : sparse) (normalize_factor : bool) : res val :=
  let* lp := s_normalize p in
  let* lq := if normalize_factor then s_normalize q else Ok q in
  let* kld := s_raw_kld o lp lq in
  clamp_kld kld.

(** sparse_categorical.py:631-643 _apply_to_probs (without the assignment argument). *)
Definition s_apply_to_probs (f : sparse) (g : val -> val) : sparse :=
  {| svars := svars f; scards := scards f;
     stbl := map (fun kv => (fst kv, g (snd kv))) (stbl f); sdef := sdef f |}.

(** sparse_categorical.py:810-823 distance_from_vacuous. *)
Definition s_distance_from_vacuous (o : oracle) (f : sparse) : res val :=
  let* u := s_copy f in
  let ulp := vopp (rlog (INR (nprod (dvals (var_cards u))))) in
  s_kl_divergence o f (s_apply_to_probs u (fun _ => ulp)) false.

(** sparse_categorical.py:825-835 potential. *)
Definition s_potential (f : sparse) (vrs : list string) (a : key) : res val :=
  let* _ := py_assert (seteqb vrs (svars f)) in
  let* idx := mapM (py_index (svars f)) vrs in
  let* k := mapM (py_nth a) idx in
  let* v := dget_r (stbl f) k in
  Ok (vexp v).

(** sparse_categorical.py:24-38 _make_dense. *)
Definition s_make_dense (f : sparse) : res sparse :=
  let* c := s_copy f in
  let* cs := vars_to_cards (var_cards c) (svars c) in
  Ok {| svars := svars c; scards := scards c;
        stbl := complete_inner (assignments cs) (sdef c) (stbl c); sdef := sdef c |}.

(** sparse_categorical.py:894-924 reorder (the result gets the default -inf). *)
Definition s_reorder (f : sparse) (order : list string) : res sparse :=
  let* idx := mapM (py_index (svars f)) order in
  let* t := foldM (fun (r : table) (kv : key * val) =>
                     let* k := mapM (py_nth (fst kv)) idx in Ok (dset r k (snd kv)))
                  (stbl f) [] in
  let* cards := mapM (py_nth (scards f)) idx in
  mk_sparse order cards t NInf.

(** sparse_categorical.py:431-453 _all_non_default_equal. *)
Definition non_default_equal (f g : sparse) (rtol atol : R) : bool :=
  forallb (fun kv =>
             match dget (stbl g) (fst kv) with
             | None => veqb (snd kv) (sdef g)
             | Some v => visclose v (snd kv) rtol atol
             end) (stbl f).

(** sparse_categorical.py:455-491 equals. *)
Definition s_equals (f g : sparse) (rtol atol : R) : res bool :=
  if negb (seteqb (svars f) (svars g)) then Ok false else
  let* g' := if eqb (svars f) (svars g) then Ok g else s_reorder g (svars f) in
  if negb (non_default_equal f g' rtol atol) then Ok false
  else if negb (non_default_equal g' f rtol atol) then Ok false
  else if negb (s_is_dense f) && negb (s_is_dense g) then Ok (veqb (sdef f) (sdef g))
  else Ok true.
