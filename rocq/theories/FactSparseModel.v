(** Model of veroku/factors/experimental/factorised_factor.py (FactorizedFactor) for factors that
    are sparse tables (SparseCategorical, SparseModel.v).  A SparseCategorical has no attribute
    [_is_vacuous] and no methods [get_log_weight], [_add_log_weight] and [log_potential]: the calls
    are AttributeErrors.  Simplification: as in FactModel.v, no two factors are the same object. *)
From Verif Require Export SparseModel GraphModel.
From Verif Require Import GaussModel.
Local Open Scope nat_scope.
Local Open Scope list_scope.

(** The object: [_var_names] and [factors]. *)
Record fz := { fz_vars : list string; fz_factors : list sparse }.

(** factorised_factor.py:24-39 the constructor. *)
Definition mk_fz (o : oracle) (factors : list sparse) : res fz :=
  let vars := so o (dedup (concat (map svars factors))) in
  let* cs := mapM s_copy factors in
  Ok {| fz_vars := vars; fz_factors := cs |}.
(** factorised_factor.py:41-51 joint_distribution. *)
Definition fz_joint (o : oracle) (a : fz) : res sparse :=
  match fz_factors a with
  | [] => Err ValueError
  | f :: fs => let* c := s_copy f in foldM (s_multiply o) fs c
  end.
(** factorised_factor.py:53-63 copy. *)
Definition fz_copy (o : oracle) (a : fz) : res fz :=
  let* cs := mapM s_copy (fz_factors a) in mk_fz o cs.
(** factorised_factor.py:307-319 _first_factor_with_vars_index. *)
Fixpoint first_with (i : nat) (fs : list sparse) (vars : list string) : option nat :=
  match fs with
  | [] => None
  | f :: fs' => if subsetb vars (svars f) then Some i else first_with (S i) fs' vars
  end.
(** factorised_factor.py:65-81 multiply: [_var_names] of the copy is not updated. *)
Definition fz_multiply (o : oracle) (a : fz) (f : sparse) : res fz :=
  let* c := fz_copy o a in
  match first_with 0 (fz_factors c) (svars f) with
  | Some i =>
      let* fi := py_nth (fz_factors c) i in
      let* p := s_multiply o fi f in
      let* fs := list_set (fz_factors c) i p in
      Ok {| fz_vars := fz_vars c; fz_factors := fs |}
  | None => Ok {| fz_vars := fz_vars c; fz_factors := fz_factors c ++ [f] |}
  end.
(** factorised_factor.py:83-104 divide. *)
Fixpoint fz_find (n i : nat) (fs : list sparse) (f : sparse) : res (option nat) :=
  match fs with
  | [] => Ok None
  | fi :: fs' =>
      let* b := s_equals fi f default_tol default_tol in
      if b && Nat.ltb 1 n then Ok (Some i) else fz_find n (S i) fs' f
  end.
Definition fz_divide (o : oracle) (a : fz) (f : sparse) : res fz :=
  let* c := fz_copy o a in
  let index := first_with 0 (fz_factors c) (svars f) in
  let* found := fz_find (length (fz_factors a)) 0 (fz_factors a) f in
  match found with
  | Some i => Ok {| fz_vars := fz_vars c; fz_factors := firstn i (fz_factors c) ++ skipn (S i) (fz_factors c) |}
  | None =>
      match index with
      | Some i =>
          let* fi := py_nth (fz_factors c) i in
          let* q := s_divide o fi f in
          let* fs := list_set (fz_factors c) i q in
          Ok {| fz_vars := fz_vars c; fz_factors := fs |}
      | None => Err PyException
      end
  end.
(** _factor.py:143-152 cancel is divide: the class does not define its own. *)
Definition fz_cancel := fz_divide.
(** factorised_factor.py:106-121 is_vacuous: [all] of the list of the flags. *)
Definition fz_is_vacuous (a : fz) : res bool :=
  match fz_factors a with [] => Ok true | _ => Err AttributeError end.
(** factorised_factor.py:123-131 distance_from_vacuous and 133-143 kl_divergence. *)
Definition fz_distance (o : oracle) (a : fz) : res val := let* j := fz_joint o a in s_distance_from_vacuous o j.
Definition fz_kl (o : oracle) (a : fz) (f : sparse) : res val := let* j := fz_joint o a in s_kl_divergence o j f true.
(** factorised_factor.py:225-244 _merge_dependent_factors: with two factors or more the name
    [varnames], which no factor has, is read.  155-165 normalize: its result is not used. *)
Definition fz_normalize (o : oracle) (a : fz) : res fz :=
  let* c := fz_copy o a in
  let* _ := match fz_factors c with _ :: _ :: _ => Err AttributeError | fs => let* cs := mapM s_copy fs in mk_fz o cs end in
  let* fs := mapM s_normalize (fz_factors c) in
  Ok {| fz_vars := fz_vars c; fz_factors := fs |}.
(** factorised_factor.py:246-274 _merge_factors_with_shared_scope (the factors afterwards). *)
Definition meets (l m : list string) : bool := negb (Nat.eqb (length (set_inter l m)) 0).
Definition fz_merge_inner (o : oracle) (fs : list sparse) (os : list (list string)) (i : nat) (f : sparse) (merged : list nat) : res (sparse * list nat) :=
  foldM (fun (st : sparse * list nat) j =>
           let '(g, merged) := st in
           if mem j merged then Ok st else
           let* oi := py_nth os i in
           let* oj := py_nth os j in
           if meets oi oj then
             let* fj := py_nth fs j in
             let* g' := s_multiply o g fj in
             Ok (g', merged ++ [j])
           else Ok st) (seq (S i) (length os - S i)) (f, merged).
Definition fz_merge_shared (o : oracle) (fs : list sparse) (vrs : list string) : res (list sparse) :=
  let os := map (fun f => set_inter (svars f) vrs) fs in
  let* r := foldM (fun (st : list sparse * list nat) i =>
                     let '(out, merged) := st in
                     if mem i merged then Ok st else
                     let* fi := py_nth fs i in
                     let* g := fz_merge_inner o fs os i fi merged in
                     Ok (out ++ [fst g], snd g)) (seq 0 (length os)) ([], []) in
  Ok (fst r).
(** factorised_factor.py:167-202 marginalize. *)
Definition fz_marg_step (o : oracle) (out : list string) (ms : list sparse) (f : sparse) : res (list sparse) :=
  let fo := set_inter (svars f) out in
  if seteqb fo (svars f) then Err AttributeError
  else let* m := s_marginalize o f (so o fo) false in Ok (ms ++ [m]).
Definition fz_marginalize (o : oracle) (a : fz) (vrs : list string) (keep : bool) : res (sparse + fz) :=
  let kept := marginal_vars o (fz_vars a) vrs keep in
  let out := set_diff (fz_vars a) kept in
  let* _ := raise_if (negb (existsb (fun f => meets kept (svars f)) (fz_factors a))) PyException in
  let* c := fz_copy o a in
  let* fs := fz_merge_shared o (fz_factors c) out in
  let* ms := foldM (fz_marg_step o out) fs [] in
  match ms with
  | [] => Err IndexError
  | _ => Err AttributeError
  end.
(** factorised_factor.py:276-305 reduce. *)
Definition fz_reduce_step (vrs : list string) (values : list nat) (rs : list sparse) (f : sparse) : res (list sparse) :=
  if seteqb vrs (svars f) then Err AttributeError
  else if meets vrs (svars f)
  then let '(vs, xs) := subset_evidence (dict_of (combine vrs values)) (svars f) in
       let* r := s_reduce f vs xs in Ok (rs ++ [r])
  else let* c := s_copy f in Ok (rs ++ [c]).
Definition fz_reduce (a : fz) (vrs : list string) (values : list nat) : res fz :=
  let* rs := foldM (fz_reduce_step vrs values) (fz_factors a) [] in
  match rs with
  | [] => Err IndexError
  | _ => Err AttributeError
  end.
(** factorised_factor.py:337-364 equals for two factorised factors; a table is wrapped first. *)
Fixpoint fz_row (fi : sparse) (bs : list sparse) : res nat :=
  match bs with
  | [] => Ok 0
  | b :: bs' =>
      let* r := s_equals fi b default_tol default_tol in
      let* n := fz_row fi bs' in
      Ok (if (r : bool) then S n else n)
  end.
Fixpoint fz_count (fs bs : list sparse) : res nat :=
  match fs with
  | [] => Ok 0
  | f :: fs' => let* n := fz_row f bs in let* m := fz_count fs' bs in Ok (n + m)
  end.
Definition fz_equals (o : oracle) (a b : fz) : res bool :=
  if negb (seteqb (fz_vars b) (fz_vars a)) then Ok false else
  if negb (Nat.eqb (length (fz_factors a)) (length (fz_factors b))) then
    let* ja := fz_joint o a in
    let* jb := fz_joint o b in
    s_equals ja jb default_tol default_tol
  else
    let* n := fz_count (fz_factors a) (fz_factors b) in Ok (Nat.eqb n (length (fz_factors a))).
Definition fz_equals_table (o : oracle) (a : fz) (f : sparse) : res bool :=
  let* b := mk_fz o [f] in fz_equals o a b.
(** factorised_factor.py:366-373 show: the loop unpacks every factor into two names ([for i, factor
    in self.factors]), and a factor of none of the classes can be unpacked.  The lines printed
    before the failure are the result otherwise. *)
Definition fz_show (a : fz) : res (list string) :=
  match fz_factors a with [] => Ok [] | _ => Err TypeError end.
