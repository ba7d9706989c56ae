(** Properties C51-C53 and C68-C72: factorised factors (products of Gaussians kept as lists).
    [lp f e] is the log potential of [f] at the assignment [e]; [scoped a] says that the variable
    names of [a] are the union of the scopes of its factors, without repetition. *)
From Verif Require Import FactStats.
Local Open Scope string_scope.
Local Open Scope R_scope.

(** C51: the product. *)
Theorem c51_multiply o a f : oracle_ok o -> fg_factors a <> [] -> all_wf (fg_factors a) -> wf_gauss f ->
  exists r j jr, fg_multiply o a f = Ok r /\ fg_joint a = Ok j /\ fg_joint r = Ok jr /\
    (forall v, In v (ga_vars jr) <-> In v (ga_vars j) \/ In v (ga_vars f)) /\
    forall e l1 l2, lp j e = Ok l1 -> lp f e = Ok l2 -> lp jr e = Ok (vadd l1 l2).
Proof. exact (fg_multiply_joint o a f). Qed.
Print Assumptions c51_multiply.
Example c51_nonvacuous : exists o, oracle_ok o /\ fg_factors (chain_fg o) <> [] /\ all_wf (fg_factors (chain_fg o)) /\ wf_gauss ex_bc.
Proof. exact multiply_hyps. Qed.

(** C52: the marginal.  Merging is not transitive: on the chain f1(x), f2(x,y), f3(y,a) the result is
    another function than the marginal of the joint. *)
Theorem c52_chain_refuted o : oracle_ok o -> exists a j m g, mk_fg o chain = Ok a /\ fg_joint a = Ok j /\ g_marginalize o j ["a"] true = Ok m /\
  fg_marginalize o a ["a"] true = Ok (inl g) /\ exists e, lp g e <> lp m e.
Proof. exact (chain_refuted o). Qed.
Print Assumptions c52_chain_refuted.
(** What holds: when sharing an integrated variable is transitive between the factors. *)
Theorem c52_marginal_partial o a vrs keep : oracle_ok o -> scoped a -> (forall f, In f (fg_factors a) -> solid f /\ plain f) ->
  NoDup vrs -> incl vrs (fg_vars a) -> (exists v, In v (fg_vars a) /\ ~ integrated a vrs keep v) ->
  (forall f g h, In f (fg_factors a) -> In g (fg_factors a) -> In h (fg_factors a) ->
     share (integrated a vrs keep) f g -> share (integrated a vrs keep) g h -> share (integrated a vrs keep) f h) ->
  exists j m r, fg_joint a = Ok j /\ g_marginalize o j vrs keep = Ok m /\ fg_marginalize o a vrs keep = Ok r /\
    match r with
    | inl g => (forall v, In v (ga_vars g) <-> In v (ga_vars m)) /\ wf_gauss g /\ forall e, lp g e = lp m e
    | Datatypes.inr b => (forall v, In v (fg_vars b) <-> In v (ga_vars m)) /\ scoped b /\ exists jb, fg_joint b = Ok jb /\ forall e, lp jb e = lp m e
    end /\ (forall v, In v (ga_vars m) <-> In v (fg_vars a) /\ ~ integrated a vrs keep v).
Proof. exact (fg_marginal_spec o a vrs keep). Qed.
Print Assumptions c52_marginal_partial.
Example c52_nonvacuous : exists o a, oracle_ok o /\ mk_fg o pairs_ok = Ok a /\ scoped a /\ (forall f, In f (fg_factors a) -> solid f /\ plain f) /\
  NoDup ["a"] /\ incl ["a"] (fg_vars a) /\ (exists v, In v (fg_vars a) /\ ~ integrated a ["a"] true v) /\
  (forall f g h, In f (fg_factors a) -> In g (fg_factors a) -> In h (fg_factors a) ->
     share (integrated a ["a"] true) f g -> share (integrated a ["a"] true) g h -> share (integrated a ["a"] true) f h).
Proof. exact pairs_hyps. Qed.
(** In particular one variable at a time. *)
Theorem c52_one_variable_partial o a y : oracle_ok o -> scoped a -> (forall f, In f (fg_factors a) -> solid f /\ plain f) ->
  In y (fg_vars a) -> (exists v, In v (fg_vars a) /\ v <> y) ->
  exists j m r, fg_joint a = Ok j /\ g_marginalize o j [y] false = Ok m /\ fg_marginalize o a [y] false = Ok r /\
    match r with
    | inl g => (forall v, In v (ga_vars g) <-> In v (ga_vars m)) /\ wf_gauss g /\ forall e, lp g e = lp m e
    | Datatypes.inr b => (forall v, In v (fg_vars b) <-> In v (ga_vars m)) /\ scoped b /\ exists jb, fg_joint b = Ok jb /\ forall e, lp jb e = lp m e
    end /\ (forall v, In v (ga_vars m) <-> In v (fg_vars a) /\ v <> y).
Proof. exact (fg_marginal_one o a y). Qed.
Print Assumptions c52_one_variable_partial.
Example c52_one_variable_nonvacuous : exists o, oracle_ok o /\ scoped (chain_fg o) /\ (forall f, In f (fg_factors (chain_fg o)) -> solid f /\ plain f) /\
  In "y" (fg_vars (chain_fg o)) /\ exists v, In v (fg_vars (chain_fg o)) /\ v <> "y".
Proof. exact chain_one. Qed.

(** C53: comparison.  A repeated factor makes an object different from itself, and different products
    can compare equal. *)
Theorem c53_reflexive_refuted o : oracle_ok o -> exists a fs bs, mk_fg o [eqA; eqA] = Ok a /\ fg_equals a a = Ok (false, fs, bs).
Proof. exact (eq_not_refl o). Qed.
Print Assumptions c53_reflexive_refuted.
Theorem c53_different_refuted o : oracle_ok o -> exists a b fs bs, mk_fg o [eqA; eqB] = Ok a /\ mk_fg o [eqA; eqA] = Ok b /\ fg_equals a b = Ok (true, fs, bs) /\
  exists ja jb e, fg_joint a = Ok ja /\ fg_joint b = Ok jb /\ lp ja e <> lp jb e.
Proof. exact (eq_different o). Qed.
Print Assumptions c53_different_refuted.
(** What holds, for factors in canonical form: equality with itself when no two factors match, and a
    true answer exactly when the factors match up to order, if no factor matches two of the others. *)
Theorem c53_reflexive_partial a : (forall f, In f (fg_factors a) -> canonical f /\ forall p, ga_can f = Some p -> snd p <> NaN) ->
  ForallOrdPairs (fun f g => ~ matches f g /\ ~ matches g f) (fg_factors a) ->
  exists bs', fg_equals a a = Ok (true, fg_factors a, bs') /\ Forall2 renamed (fg_factors a) bs'.
Proof. exact (fg_equals_refl a). Qed.
Print Assumptions c53_reflexive_partial.
Theorem c53_equal_partial a b : (forall f, In f (fg_factors a) -> canonical f) -> (forall f, In f (fg_factors b) -> canonical f) ->
  (forall v, In v (fg_vars a) <-> In v (fg_vars b)) -> length (fg_factors a) = length (fg_factors b) ->
  sep_rows (fg_factors a) (fg_factors b) -> sep_cols (fg_factors a) (fg_factors b) ->
  exists r bs', fg_equals a b = Ok (r, fg_factors a, bs') /\ Forall2 renamed (fg_factors b) bs' /\
    (r = true <-> exists bs, Permutation bs (fg_factors b) /\ Forall2 matches (fg_factors a) bs).
Proof. exact (fg_equals_iff a b). Qed.
Print Assumptions c53_equal_partial.
(** Different scopes, and different numbers of factors (then the products are compared). *)
Theorem c53_scope_partial a b v : (In v (fg_vars a) /\ ~ In v (fg_vars b)) \/ (~ In v (fg_vars a) /\ In v (fg_vars b)) ->
  fg_equals a b = Ok (false, fg_factors a, fg_factors b).
Proof. exact (fg_equals_scope a b v). Qed.
Print Assumptions c53_scope_partial.
Example c53_scope_nonvacuous : In "a" (fg_vars two_fg) /\ ~ In "a" (fg_vars {| fg_vars := ["b"]; fg_factors := [vac_b] |}).
Proof. split; [now left|]. cbn. intros [X|[]]. discriminate X. Qed.
Theorem c53_shapes_partial a b :
  (forall v, In v (fg_vars a) <-> In v (fg_vars b)) -> length (fg_factors a) <> length (fg_factors b) -> fg_factors a <> [] -> fg_factors b <> [] ->
  (forall f, In f (fg_factors a) \/ In f (fg_factors b) -> solid f /\ canonical f) ->
  exists r ja jb, fg_equals a b = Ok (r, fg_factors a, fg_factors b) /\
    (forall e, lp ja e = Ok (lvs (fg_factors a) e)) /\ (forall e, lp jb e = Ok (lvs (fg_factors b) e)) /\ (r = true <-> matches ja jb).
Proof. exact (fg_equals_shapes a b). Qed.
Print Assumptions c53_shapes_partial.
Example c53_shapes_nonvacuous : (forall v, In v (fg_vars two_fg) <-> In v (fg_vars one_fg)) /\ length (fg_factors two_fg) <> length (fg_factors one_fg) /\
  (forall f, In f (fg_factors two_fg) \/ In f (fg_factors one_fg) -> solid f /\ canonical f) /\ (forall f, In f (fg_factors two_fg) -> solid f /\ plain f).
Proof. exact shapes_hyps. Qed.
Example c53_nonvacuous : (forall f, In f [eqA; eqB] -> canonical f /\ forall p, ga_can f = Some p -> snd p <> NaN) /\
  ForallOrdPairs (fun f g => ~ matches f g /\ ~ matches g f) [eqA; eqB] /\
  sep_rows [eqA; eqB] [eqB; eqA] /\ sep_cols [eqA; eqB] [eqB; eqA].
Proof. exact eq_sep_hyps. Qed.

(** C68: the scope of a product. *)
Theorem c68_scope_refuted o : oracle_ok o -> exists a r b, mk_fg o [ch1] = Ok a /\ fg_multiply o a (one_v "b" 1) = Ok r /\
  ~ In "b" (fg_vars r) /\ in_scope (fg_factors r) "b" /\ fg_marginalize o r ["x"] true = Ok (Datatypes.inr b) /\ In "b" (fg_vars b).
Proof. exact (stale_scope o). Qed.
Print Assumptions c68_scope_refuted.
Theorem c68_scope_partial o a f : oracle_ok o -> all_wf (fg_factors a) -> wf_gauss f -> (forall v, In v (ga_vars f) -> in_scope (fg_factors a) v) ->
  exists r, fg_multiply o a f = Ok r /\ scoped r /\ forall v, In v (fg_vars r) <-> in_scope (fg_factors a) v.
Proof. exact (multiply_scoped o a f). Qed.
Print Assumptions c68_scope_partial.
Example c68_nonvacuous : exists o, oracle_ok o /\ all_wf (fg_factors (chain_fg o)) /\ wf_gauss ch3 /\ (forall v, In v (ga_vars ch3) -> in_scope (fg_factors (chain_fg o)) v).
Proof. exact no_new_hyps. Qed.

(** C69: reduction.  Fails when a factor's scope lies strictly inside the observed variables, or when
    all factors are observed. *)
Theorem c69_inside_refuted o : mk_fg o chain = Ok (chain_fg o) /\ fg_reduce o (chain_fg o) ["x"; "y"] [0; 0] = Err AssertionError.
Proof. exact (conj (chain_made o) (chain_reduce_inside o)). Qed.
Print Assumptions c69_inside_refuted.
Theorem c69_inside_error o a vrs values f : NoDup vrs -> length values = length vrs ->
  (forall g, In g (fg_factors a) -> wf_gauss g /\ sym_prec g) ->
  In f (fg_factors a) -> incl (ga_vars f) vrs -> ~ incl vrs (ga_vars f) -> ga_vars f <> [] -> fg_reduce o a vrs values = Err AssertionError.
Proof. exact (fg_reduce_inside o a vrs values f). Qed.
Print Assumptions c69_inside_error.
Theorem c69_all_error o a vrs values : NoDup vrs -> length values = length vrs ->
  (forall f, In f (fg_factors a) -> wf_gauss f /\ forall v, In v (ga_vars f) <-> In v vrs) ->
  fg_reduce o a vrs values = Err IndexError.
Proof. exact (fg_reduce_all o a vrs values). Qed.
Print Assumptions c69_all_error.
Example c69_all_nonvacuous o : mk_fg o [ch1] = Ok (sc_a o) /\ fg_reduce o (sc_a o) ["x"] [0] = Err IndexError.
Proof. exact (conj (sc_made o) (single_reduce_all o)). Qed.
Theorem c69_reduce_partial o a vrs values : oracle_ok o -> NoDup vrs -> length values = length vrs ->
  (forall f, In f (fg_factors a) -> wf_gauss f /\ sym_prec f /\ (incl (ga_vars f) vrs -> incl vrs (ga_vars f))) ->
  (exists f, In f (fg_factors a) /\ ~ incl (ga_vars f) vrs) ->
  exists r j jr, fg_reduce o a vrs values = Ok r /\ fg_joint a = Ok j /\ fg_joint r = Ok jr /\ scoped r /\
    (forall v, In v (ga_vars jr) <-> In v (ga_vars j) /\ ~ In v vrs) /\
    forall e, map e vrs = values -> lp jr e = lp j e.
Proof. exact (fg_reduce_joint o a vrs values). Qed.
Print Assumptions c69_reduce_partial.
Example c69_nonvacuous : exists o, oracle_ok o /\ NoDup ["y"] /\ length [3] = length ["y"] /\
  (forall f, In f (fg_factors (chain_fg o)) -> wf_gauss f /\ sym_prec f /\ (incl (ga_vars f) ["y"] -> incl ["y"] (ga_vars f))) /\
  (exists f, In f (fg_factors (chain_fg o)) /\ ~ incl (ga_vars f) ["y"]).
Proof. exact chain_reduce_hyps. Qed.

(** C70: normalising. *)
Theorem c70_normalize_refuted : exists o a, oracle_ok o /\ mk_fg o chain = Ok a /\ fg_normalize o a = Err AttributeError.
Proof. exact normalize_refuted. Qed.
Print Assumptions c70_normalize_refuted.
Theorem c70_always_fails o a : oracle_ok o -> all_wf (fg_factors a) -> (2 <= length (fg_factors a))%nat -> fg_normalize o a = Err AttributeError.
Proof. exact (fg_normalize_fails o a). Qed.
Print Assumptions c70_always_fails.
Theorem c70_one_factor_partial o a f f' C m w : oracle_ok o -> fg_factors a = [f] -> solid f -> get_cov f = Ok (f', (C, m, Fin w)) ->
  exists r, fg_normalize o a = Ok r /\ scoped r /\ (forall e, lvs (fg_factors r) e = vsub (lvs (fg_factors a) e) (Fin w)) /\
    exists g, fg_factors r = [g] /\ solid g /\ plain g /\ forall ys e, Permutation ys (ga_vars g) -> iint ys (gval g) e 1.
Proof. exact (fg_normalize_one o a f f' C m w). Qed.
Print Assumptions c70_one_factor_partial.
Example c70_nonvacuous : exists o a f' C m w, oracle_ok o /\ fg_factors a = [ex_ab] /\ solid ex_ab /\ get_cov ex_ab = Ok (f', (C, m, Fin w)).
Proof. exact normalize_hyps. Qed.

(** C71: division.  A factor that is merely close to the divisor is removed, and the scope is not
    updated; a divisor that spans factors is refused. *)
Theorem c71_close_refuted o : oracle_ok o -> exists r f', mk_fg o [ch1; dvC] = Ok (dv_a o) /\ fg_divide o (dv_a o) dvF = Ok (r, f') /\
  (exists e, lvs (fg_factors r) e <> vsub (lvs (fg_factors (dv_a o)) e) (lv dvF e)) /\ fg_factors r = [dvC] /\ In "x" (fg_vars r).
Proof. exact (dv_close_removed o). Qed.
Print Assumptions c71_close_refuted.
Theorem c71_spanning_refuted o : mk_fg o [ch1; dvC] = Ok (dv_a o) /\ fg_divide o (dv_a o) (two_v "x" "y" 1 0 1) = Err PyException.
Proof. exact (conj (dv_made o) (dv_spanning o)). Qed.
Print Assumptions c71_spanning_refuted.
Theorem c71_divide_partial o a f : oracle_ok o -> (forall fi, In fi (fg_factors a) -> wf_gauss fi /\ ga_vac fi = false) ->
  wf_gauss f -> regular f -> ga_vac f = false ->
  (forall fi f1 fi' f2, In fi (fg_factors a) -> same_fun f f1 -> g_equals fi f1 default_tol default_tol = Ok (true, fi', f2) -> forall e, lp fi e = lp f1 e) ->
  (exists fi, In fi (fg_factors a) /\ incl (ga_vars f) (ga_vars fi)) ->
  exists r f' j jr, fg_divide o a f = Ok (r, f') /\ fg_joint a = Ok j /\ fg_joint r = Ok jr /\
    forall e l1 x, lp j e = Ok l1 -> lp f e = Ok (Fin x) -> lp jr e = Ok (vsub l1 (Fin x)).
Proof. exact (fg_divide_joint o a f). Qed.
Print Assumptions c71_divide_partial.
Example c71_nonvacuous : exists o, oracle_ok o /\ (forall fi, In fi (fg_factors (chain_fg o)) -> wf_gauss fi /\ ga_vac fi = false) /\ wf_gauss dvC /\ regular dvC /\ ga_vac dvC = false /\
  (forall fi f1 fi' f2, In fi (fg_factors (chain_fg o)) -> same_fun dvC f1 -> g_equals fi f1 default_tol default_tol = Ok (true, fi', f2) -> forall e, lp fi e = lp f1 e) /\
  (exists fi, In fi (fg_factors (chain_fg o)) /\ incl (ga_vars dvC) (ga_vars fi)).
Proof. exact divide_hyps. Qed.

(** C72: vacuity of a product and its distance from a vacuous one. *)
Theorem c72_is_vacuous a :
  (fg_is_vacuous a = Ok true <-> forall f, In f (fg_factors a) -> ga_vac f = true) /\
  (fg_is_vacuous a = Ok false <-> fg_factors a <> [] /\ forall f, In f (fg_factors a) -> ga_vac f = false) /\
  (fg_is_vacuous a = Err NotImplementedError <-> exists f g, In f (fg_factors a) /\ In g (fg_factors a) /\ ga_vac f = true /\ ga_vac g = false).
Proof. exact (fg_is_vacuous_spec a). Qed.
Print Assumptions c72_is_vacuous.
Theorem c72_distance a : fg_factors a <> [] -> (forall f, In f (fg_factors a) -> solid f /\ plain f) -> fg_distance a = Ok PInf.
Proof. exact (fg_distance_solid a). Qed.
Print Assumptions c72_distance.
Example c72_nonvacuous : (forall f, In f (fg_factors two_fg) -> solid f /\ plain f) /\
  fg_is_vacuous {| fg_vars := ["a"; "b"]; fg_factors := [one_v "a" 1; vac_b] |} = Err NotImplementedError /\
  fg_is_vacuous {| fg_vars := ["a"]; fg_factors := [one_v "a" 1] |} = Ok false /\ fg_is_vacuous {| fg_vars := ["b"]; fg_factors := [vac_b] |} = Ok true.
Proof. split; [apply shapes_hyps|exact vac_mixed]. Qed.
