(** Model of veroku/factors/experimental/factorised_factor.py (FactorizedFactor) for factors that
    are Gaussians (GaussModel.v).  Simplifications: converting a Gaussian to its other form on
    demand leaves the object otherwise as it was, so only the calls to [equals], which can reorder
    their argument, return the objects afterwards; no two entries of a list of factors are the same
    object (the constructor copies them; [multiply] appends its argument itself, and the model
    treats it as a copy).  Not modelled: [show] (printing; it iterates over the factors as if they
    were pairs and fails), factors of other classes. *)
From Verif Require Export GaussModel GraphModel.

(** The object: [_var_names] and [factors]. *)
Record fg := { fg_vars : list string; fg_factors : list gauss }.

(** factorised_factor.py:24-39 the constructor. *)
Definition mk_fg (o : oracle) (factors : list gauss) : res fg :=
  let vars := so o (dedup (concat (map ga_vars factors))) in
  let* cs := mapM g_copy factors in
  Ok {| fg_vars := vars; fg_factors := cs |}.

(** factorised_factor.py:41-51 joint_distribution. *)
Definition fg_joint (a : fg) : res gauss :=
  match fg_factors a with
  | [] => Err ValueError
  | f :: fs => let* c := g_copy f in foldM g_multiply fs c
  end.

(** factorised_factor.py:53-63 copy. *)
Definition fg_copy (o : oracle) (a : fg) : res fg :=
  let* cs := mapM g_copy (fg_factors a) in mk_fg o cs.

(** factorised_factor.py:307-319 _first_factor_with_vars_index. *)
Definition first_with_vars (fs : list gauss) (vars : list string) : option nat :=
  (fix go (i : nat) (fs : list gauss) : option nat :=
     match fs with
     | [] => None
     | f :: fs' => if subsetb vars (ga_vars f) then Some i else go (S i) fs'
     end) 0 fs.
(** factorised_factor.py:321-335 _all_intersecting_factors_indices. *)
Definition meets (l m : list string) : bool := negb (Nat.eqb (length (set_inter l m)) 0).
Definition intersecting (fs : list gauss) (vars : list string) : list nat :=
  (fix go (i : nat) (fs : list gauss) : list nat :=
     match fs with
     | [] => []
     | f :: fs' => if meets vars (ga_vars f) then i :: go (S i) fs' else go (S i) fs'
     end) 0 fs.

(** factorised_factor.py:65-81 multiply: [_var_names] of the copy is not updated. *)
Definition fg_multiply (o : oracle) (a : fg) (f : gauss) : res fg :=
  let* c := fg_copy o a in
  match first_with_vars (fg_factors c) (ga_vars f) with
  | Some i =>
      let* fi := py_nth (fg_factors c) i in
      let* p := g_multiply fi f in
      let* fs := list_set (fg_factors c) i p in
      Ok {| fg_vars := fg_vars c; fg_factors := fs |}
  | None => Ok {| fg_vars := fg_vars c; fg_factors := fg_factors c ++ [f] |}
  end.

(** factorised_factor.py:83-104 divide: the result and the argument afterwards.  The loop compares
    the factors of the object itself, in order. *)
Definition del_nth {A : Type} (l : list A) (i : nat) : list A := firstn i l ++ skipn (S i) l.
Fixpoint fg_find (n i : nat) (fs : list gauss) (f : gauss) : res (option nat * gauss) :=
  match fs with
  | [] => Ok (None, f)
  | fi :: fs' =>
      let* e := g_equals fi f default_tol default_tol in
      let '(b, _, f') := e in
      if (b : bool) && Nat.ltb 1 n then Ok (Some i, f') else fg_find n (S i) fs' f'
  end.
Definition fg_divide (o : oracle) (a : fg) (f : gauss) : res (fg * gauss) :=
  let* c := fg_copy o a in
  let index := first_with_vars (fg_factors c) (ga_vars f) in
  let* r := fg_find (length (fg_factors a)) 0 (fg_factors a) f in
  let '(found, f') := r in
  match found with
  | Some i => Ok ({| fg_vars := fg_vars c; fg_factors := del_nth (fg_factors c) i |}, f')
  | None =>
      match index with
      | Some i =>
          let* fi := py_nth (fg_factors c) i in
          let* q := g_divide fi f' in
          let* fs := list_set (fg_factors c) i q in
          Ok ({| fg_vars := fg_vars c; fg_factors := fs |}, f')
      | None => Err PyException
      end
  end.

(** factorised_factor.py:106-121 is_vacuous. *)
Definition fg_is_vacuous (a : fg) : res bool :=
  if forallb ga_vac (fg_factors a) then Ok true
  else if forallb (fun f => negb (ga_vac f)) (fg_factors a) then Ok false
  else Err NotImplementedError.
(** factorised_factor.py:123-131 distance_from_vacuous and 133-143 kl_divergence. *)
Definition fg_distance (a : fg) : res val := let* j := fg_joint a in Ok (g_distance_from_vacuous j).
Definition fg_kl (a : fg) (f : gauss) : res (val * gauss * gauss) := let* j := fg_joint a in g_kl_divergence j f.

(** factorised_factor.py:225-244 _merge_dependent_factors: with two factors or more the name
    [varnames], which no factor has, is read.  155-165 normalize: its result is not used. *)
Definition fg_merge_dependent (o : oracle) (fs : list gauss) : res fg :=
  match fs with
  | _ :: _ :: _ => Err AttributeError
  | _ => let* cs := mapM g_copy fs in mk_fg o cs
  end.
Definition fg_normalize (o : oracle) (a : fg) : res fg :=
  let* c := fg_copy o a in
  let* _ := fg_merge_dependent o (fg_factors c) in
  let* fs := mapM g_normalize (fg_factors c) in
  Ok {| fg_vars := fg_vars c; fg_factors := fs |}.

(** factorised_factor.py:246-274 _merge_factors_with_shared_scope (the factors afterwards). *)
Definition merge_inner (fs : list gauss) (os : list (list string)) (i : nat) (f : gauss) (merged : list nat)
  : res (gauss * list nat) :=
  foldM (fun (st : gauss * list nat) j =>
           let '(g, merged) := st in
           if mem j merged then Ok st else
           let* oi := py_nth os i in
           let* oj := py_nth os j in
           if meets oi oj then
             let* fj := py_nth fs j in
             let* g' := g_multiply g fj in
             Ok (g', merged ++ [j])
           else Ok st) (seq (S i) (length os - S i)) (f, merged).
Definition merge_shared (fs : list gauss) (vrs : list string) : res (list gauss) :=
  let os := map (fun f => set_inter (ga_vars f) vrs) fs in
  let* r := foldM (fun (st : list gauss * list nat) i =>
                     let '(out, merged) := st in
                     if mem i merged then Ok st else
                     let* fi := py_nth fs i in
                     let* g := merge_inner fs os i fi merged in
                     Ok (out ++ [fst g], snd g)) (seq 0 (length os)) ([], []) in
  Ok (fst r).

(** factorised_factor.py:167-202 marginalize: a Gaussian when only one factor remains. *)
Definition marg_step (o : oracle) (out : list string) (st : list gauss * val) (f : gauss) : res (list gauss * val) :=
  let '(ms, w) := st in
  let fo := set_inter (ga_vars f) out in
  if seteqb fo (ga_vars f)
  then let* wf := get_log_weight f in Ok (ms, vadd w wf)
  else let* m := g_marginalize o f (so o fo) false in Ok (ms ++ [m], w).
Definition fg_marginalize (o : oracle) (a : fg) (vrs : list string) (keep : bool) : res (gauss + fg) :=
  let kept := marginal_vars o (fg_vars a) vrs keep in
  let out := set_diff (fg_vars a) kept in
  let* _ := raise_if (Nat.eqb (length (intersecting (fg_factors a) kept)) 0) PyException in
  let* c := fg_copy o a in
  let* fs := merge_shared (fg_factors c) out in
  let* r := foldM (marg_step o out) fs ([], Fin 0) in
  let '(ms, w) := r in
  match ms with
  | [] => Err IndexError
  | [m] => Ok (inl (add_log_weight m w))
  | m :: ms' => let* b := mk_fg o (add_log_weight m w :: ms') in Ok (inr b)
  end.

(** factorised_factor.py:207-223 get_cov and get_mean. *)
Definition fg_get_cov (a : fg) : res mat := let* j := fg_joint a in let* r := get_cov j in Ok (fst (fst (snd r))).
Definition fg_get_mean (a : fg) : res mat := let* j := fg_joint a in let* r := get_cov j in Ok (snd (fst (snd r))).

(** factorised_factor.py:276-305 reduce. *)
Definition reduce_step (vrs : list string) (values : list R) (st : list gauss * val) (f : gauss) : res (list gauss * val) :=
  let '(rs, w) := st in
  if seteqb vrs (ga_vars f)
  then let* l := log_potential f values (Some vrs) in Ok (rs, vadd w l)
  else if meets vrs (ga_vars f)
  then let '(vs, xs) := subset_evidence (dict_of (combine vrs values)) (ga_vars f) in
       let* r := g_reduce f vs xs in Ok (rs ++ [r], w)
  else let* c := g_copy f in Ok (rs ++ [c], w).
Definition fg_reduce (o : oracle) (a : fg) (vrs : list string) (values : list R) : res fg :=
  let* r := foldM (reduce_step vrs values) (fg_factors a) ([], Fin 0) in
  let '(rs, w) := r in
  match rs with
  | [] => Err IndexError
  | f :: fs => mk_fg o (add_log_weight f w :: fs)
  end.

(** factorised_factor.py:337-364 equals for two factorised factors: the answer and the factors of
    both objects afterwards.  The inner loop has no break and counts every match; the tolerances
    are not passed on.  A Gaussian argument is wrapped first ([fg_equals_gauss]). *)
Fixpoint count_row (fi : gauss) (bs : list gauss) : res (nat * gauss * list gauss) :=
  match bs with
  | [] => Ok (0, fi, [])
  | b :: bs' =>
      let* e := g_equals fi b default_tol default_tol in
      let '(r, fi', b') := e in
      let* t := count_row fi' bs' in
      let '(n, fi'', bs'') := t in
      Ok ((if (r : bool) then S n else n), fi'', b' :: bs'')
  end.
Fixpoint count_all (fs bs : list gauss) : res (nat * list gauss * list gauss) :=
  match fs with
  | [] => Ok (0, [], bs)
  | f :: fs' =>
      let* r := count_row f bs in
      let '(n, f', bs') := r in
      let* t := count_all fs' bs' in
      let '(m, fs'', bs'') := t in
      Ok (n + m, f' :: fs'', bs'')
  end.
Definition fg_equals (a b : fg) : res (bool * list gauss * list gauss) :=
  if negb (seteqb (fg_vars b) (fg_vars a)) then Ok (false, fg_factors a, fg_factors b) else
  if negb (Nat.eqb (length (fg_factors a)) (length (fg_factors b))) then
    let* ja := fg_joint a in
    let* jb := fg_joint b in
    let* e := g_equals ja jb default_tol default_tol in
    Ok (fst (fst e), fg_factors a, fg_factors b)
  else
    let* r := count_all (fg_factors a) (fg_factors b) in
    let '(n, fa, fb) := r in Ok (Nat.eqb n (length (fg_factors a)), fa, fb).
Definition fg_equals_gauss (o : oracle) (a : fg) (f : gauss) : res (bool * list gauss * list gauss) :=
  let* b := mk_fg o [f] in fg_equals a b.
