(** Model of veroku/factors/experimental/factorised_factor.py (FactorizedFactor) for factors that
    are dense tables (Categorical, DenseModel.v).  A Categorical has no attribute [_is_vacuous] and
    no methods [get_log_weight], [_add_log_weight] and [log_potential]: the calls are
    AttributeErrors.  Simplification: as in FactModel.v, no two factors are the same object. *)
From Coq Require Import ZArith.
From Verif Require Export DenseModel GraphModel.
From Verif Require Import GaussModel.
Local Open Scope nat_scope.
Local Open Scope list_scope.

(** The object: [_var_names] and [factors]. *)
Record ft := { ft_vars : list string; ft_factors : list dense }.

(** factorised_factor.py:24-39 the constructor. *)
Definition mk_ft (o : oracle) (factors : list dense) : res ft :=
  let vars := so o (dedup (concat (map dvars factors))) in
  let* cs := mapM d_copy factors in
  Ok {| ft_vars := vars; ft_factors := cs |}.
(** factorised_factor.py:41-51 joint_distribution. *)
Definition ft_joint (a : ft) : res dense :=
  match ft_factors a with
  | [] => Err ValueError
  | f :: fs => let* c := d_copy f in foldM d_multiply fs c
  end.
(** factorised_factor.py:53-63 copy. *)
Definition ft_copy (o : oracle) (a : ft) : res ft :=
  let* cs := mapM d_copy (ft_factors a) in mk_ft o cs.
(** factorised_factor.py:307-319 _first_factor_with_vars_index. *)
Fixpoint first_covering (i : nat) (fs : list dense) (vars : list string) : option nat :=
  match fs with
  | [] => None
  | f :: fs' => if subsetb vars (dvars f) then Some i else first_covering (S i) fs' vars
  end.
(** factorised_factor.py:65-81 multiply: [_var_names] of the copy is not updated. *)
Definition ft_multiply (o : oracle) (a : ft) (f : dense) : res ft :=
  let* c := ft_copy o a in
  match first_covering 0 (ft_factors c) (dvars f) with
  | Some i =>
      let* fi := py_nth (ft_factors c) i in
      let* p := d_multiply fi f in
      let* fs := list_set (ft_factors c) i p in
      Ok {| ft_vars := ft_vars c; ft_factors := fs |}
  | None => Ok {| ft_vars := ft_vars c; ft_factors := ft_factors c ++ [f] |}
  end.
(** factorised_factor.py:83-104 divide. *)
Fixpoint ft_find (n i : nat) (fs : list dense) (f : dense) : res (option nat) :=
  match fs with
  | [] => Ok None
  | fi :: fs' =>
      let* b := d_equals fi f default_tol default_tol in
      if b && Nat.ltb 1 n then Ok (Some i) else ft_find n (S i) fs' f
  end.
Definition ft_divide (o : oracle) (a : ft) (f : dense) : res ft :=
  let* c := ft_copy o a in
  let index := first_covering 0 (ft_factors c) (dvars f) in
  let* found := ft_find (length (ft_factors a)) 0 (ft_factors a) f in
  match found with
  | Some i => Ok {| ft_vars := ft_vars c; ft_factors := firstn i (ft_factors c) ++ skipn (S i) (ft_factors c) |}
  | None =>
      match index with
      | Some i =>
          let* fi := py_nth (ft_factors c) i in
          let* q := d_divide fi f in
          let* fs := list_set (ft_factors c) i q in
          Ok {| ft_vars := ft_vars c; ft_factors := fs |}
      | None => Err PyException
      end
  end.
(** factorised_factor.py:106-121 is_vacuous: [all] of the list of the flags. *)
Definition ft_is_vacuous (a : ft) : res bool :=
  match ft_factors a with [] => Ok true | _ => Err AttributeError end.
(** factorised_factor.py:123-131 distance_from_vacuous and 133-143 kl_divergence. *)
Definition ft_distance (a : ft) : res val := let* j := ft_joint a in d_distance_from_vacuous j.
Definition ft_kl (a : ft) (f : dense) : res val := let* j := ft_joint a in d_kl_divergence j f true.
(** factorised_factor.py:225-244 _merge_dependent_factors: with two factors or more the name
    [varnames], which no factor has, is read.  155-165 normalize: its result is not used. *)
Definition ft_normalize (o : oracle) (a : ft) : res ft :=
  let* c := ft_copy o a in
  let* _ := match ft_factors c with _ :: _ :: _ => Err AttributeError | fs => let* cs := mapM d_copy fs in mk_ft o cs end in
  let* fs := mapM d_normalize (ft_factors c) in
  Ok {| ft_vars := ft_vars c; ft_factors := fs |}.
(** factorised_factor.py:246-274 _merge_factors_with_shared_scope (the factors afterwards). *)
Definition overlap (l m : list string) : bool := negb (Nat.eqb (length (set_inter l m)) 0).
Definition ft_merge_inner (fs : list dense) (os : list (list string)) (i : nat) (f : dense) (merged : list nat) : res (dense * list nat) :=
  foldM (fun (st : dense * list nat) j =>
           let '(g, merged) := st in
           if mem j merged then Ok st else
           let* oi := py_nth os i in
           let* oj := py_nth os j in
           if overlap oi oj then
             let* fj := py_nth fs j in
             let* g' := d_multiply g fj in
             Ok (g', merged ++ [j])
           else Ok st) (seq (S i) (length os - S i)) (f, merged).
Definition ft_merge_shared (fs : list dense) (vrs : list string) : res (list dense) :=
  let os := map (fun f => set_inter (dvars f) vrs) fs in
  let* r := foldM (fun (st : list dense * list nat) i =>
                     let '(out, merged) := st in
                     if mem i merged then Ok st else
                     let* fi := py_nth fs i in
                     let* g := ft_merge_inner fs os i fi merged in
                     Ok (out ++ [fst g], snd g)) (seq 0 (length os)) ([], []) in
  Ok (fst r).
(** factorised_factor.py:167-202 marginalize. *)
Definition ft_marg_step (o : oracle) (out : list string) (ms : list dense) (f : dense) : res (list dense) :=
  let fo := set_inter (dvars f) out in
  if seteqb fo (dvars f) then Err AttributeError
  else let* m := d_marginalize o f (so o fo) false in Ok (ms ++ [m]).
Definition ft_marginalize (o : oracle) (a : ft) (vrs : list string) (keep : bool) : res (dense + ft) :=
  let kept := d_marginal_vars o (ft_vars a) vrs keep in
  let out := set_diff (ft_vars a) kept in
  let* _ := raise_if (negb (existsb (fun f => overlap kept (dvars f)) (ft_factors a))) PyException in
  let* c := ft_copy o a in
  let* fs := ft_merge_shared (ft_factors c) out in
  let* ms := foldM (ft_marg_step o out) fs [] in
  match ms with
  | [] => Err IndexError
  | _ => Err AttributeError
  end.
(** factorised_factor.py:276-305 reduce. *)
Definition ft_reduce_step (vrs : list string) (values : list Z) (rs : list dense) (f : dense) : res (list dense) :=
  if seteqb vrs (dvars f) then Err AttributeError
  else if overlap vrs (dvars f)
  then let '(vs, xs) := subset_evidence (dict_of (combine vrs values)) (dvars f) in
       let* r := d_reduce f vs xs in Ok (rs ++ [r])
  else let* c := d_copy f in Ok (rs ++ [c]).
Definition ft_reduce (a : ft) (vrs : list string) (values : list Z) : res ft :=
  let* rs := foldM (ft_reduce_step vrs values) (ft_factors a) [] in
  match rs with
  | [] => Err IndexError
  | _ => Err AttributeError
  end.
(** factorised_factor.py:337-364 equals for two factorised factors; a table is wrapped first. *)
Fixpoint ft_row (fi : dense) (bs : list dense) : res nat :=
  match bs with
  | [] => Ok 0
  | b :: bs' =>
      let* r := d_equals fi b default_tol default_tol in
      let* n := ft_row fi bs' in
      Ok (if (r : bool) then S n else n)
  end.
Fixpoint ft_count (fs bs : list dense) : res nat :=
  match fs with
  | [] => Ok 0
  | f :: fs' => let* n := ft_row f bs in let* m := ft_count fs' bs in Ok (n + m)
  end.
Definition ft_equals (a b : ft) : res bool :=
  if negb (seteqb (ft_vars b) (ft_vars a)) then Ok false else
  if negb (Nat.eqb (length (ft_factors a)) (length (ft_factors b))) then
    let* ja := ft_joint a in
    let* jb := ft_joint b in
    d_equals ja jb default_tol default_tol
  else
    let* n := ft_count (ft_factors a) (ft_factors b) in Ok (Nat.eqb n (length (ft_factors a))).
Definition ft_equals_table (o : oracle) (a : ft) (f : dense) : res bool :=
  let* b := mk_ft o [f] in ft_equals a b.
