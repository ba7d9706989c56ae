(** Properties C152-C155: factorised factors whose factors are sparse tables.
    [sgood card f]: [f] is a well formed table whose absent entries have potential zero and whose
    variables have the cardinalities [card]; [spot f e] is the potential of [f] at the assignment
    [e]; [zprod fs e] is the product of the potentials of [fs] at [e]; [zscope fs v]: some factor
    has the variable [v]. *)
From Coq Require Import Lia.
From Verif Require Import FactSparseFails GraphExamples.
Local Open Scope string_scope.
Local Open Scope nat_scope.
Local Open Scope list_scope.
Local Notation io := SparseExamples.id_oracle.
Local Notation io_ok := SparseExamples.id_oracle_ok.

(** C152: the joint table is the product of the factors, and [multiply] multiplies it. *)
Theorem c152_joint card o fs : oracle_ok o -> fs <> [] -> (forall g, In g fs -> sgood card g) ->
  exists a j, mk_fz o fs = Ok a /\ fz_joint o a = Ok j /\ NoDup (fz_vars a) /\ (forall v, In v (fz_vars a) <-> zscope fs v) /\
    (forall v, In v (svars j) <-> zscope fs v) /\ (forall e, spot j e = zprod fs e).
Proof. exact (mk_fz_joint card o fs). Qed.
Print Assumptions c152_joint.
Theorem c152_multiply card o a f : oracle_ok o -> fz_factors a <> [] -> (forall g, In g (fz_factors a) -> sgood card g) -> sgood card f ->
  exists r j jr, fz_multiply o a f = Ok r /\ fz_joint o a = Ok j /\ fz_joint o r = Ok jr /\
    (forall v, In v (svars jr) <-> In v (svars j) \/ In v (svars f)) /\ (forall e, spot jr e = (spot j e * spot f e)%R).
Proof. exact (fz_multiply_joint card o a f). Qed.
Print Assumptions c152_multiply.
(** The variable names kept by the product are the old ones. *)
Theorem c152_scope_refuted o : oracle_ok o -> exists a f r, (forall g, In g (fz_factors a) -> sgood two g) /\ sgood two f /\
  fz_multiply o a f = Ok r /\ zscope (fz_factors r) "z" /\ ~ In "z" (fz_vars r).
Proof. exact (multiply_scope_refuted o). Qed.
Print Assumptions c152_scope_refuted.
Example c152_nonvacuous : exists a, mk_fz io [gx_ab; gx_abc] = Ok a /\ (forall f, In f (fz_factors a) -> sgood two f) /\ fz_factors a <> [] /\ 1 < length (fz_factors a).
Proof. exact (ex_made io io_ok). Qed.

(** C153: division.  With two factors or more the quotient, though returned, has no joint table: the
    factor that was divided keeps a default that no product accepts. *)
Theorem c153_unusable_refuted o o' : oracle_ok o -> oracle_ok o' -> exists a f r, (forall g, In g (fz_factors a) -> sgood two g) /\ sgood two f /\
  (forall e, in_range f e -> spot f e <> 0%R) /\ fz_divide o a f = Ok r /\ fz_joint o' r = Err NotImplementedError.
Proof. exact (divide_refuted o o'). Qed.
Print Assumptions c153_unusable_refuted.
Theorem c153_close_refuted o : oracle_ok o -> exists a f r, (forall g, In g (fz_factors a) -> sgood two g) /\ sgood two f /\
  (forall e, in_range f e -> spot f e <> 0%R) /\ fz_divide o a f = Ok r /\ exists e, in_range f e /\ zprod (fz_factors r) e <> (zprod (fz_factors a) e / spot f e)%R.
Proof. exact (divide_close_refuted o). Qed.
Print Assumptions c153_close_refuted.
Theorem c153_split_refuted o : oracle_ok o -> exists a f j q, (forall g, In g (fz_factors a) -> sgood two g) /\ sgood two f /\
  fz_joint o a = Ok j /\ s_divide o j f = Ok q /\ fz_divide o a f = Err PyException.
Proof. exact (divide_split_refuted o). Qed.
Print Assumptions c153_split_refuted.
Theorem c153_never_usable card o o' a f : oracle_ok o -> oracle_ok o' -> 2 <= length (fz_factors a) -> (forall g, In g (fz_factors a) -> sgood card g) -> sgood card f -> svars f <> [] ->
  (forall g, In g (fz_factors a) -> ~ zclose g f) -> (exists g, In g (fz_factors a) /\ incl (svars f) (svars g)) ->
  exists r, fz_divide o a f = Ok r /\ fz_joint o' r = Err NotImplementedError.
Proof. exact (fz_divide_unusable card o o' a f). Qed.
Print Assumptions c153_never_usable.
Example c153_never_usable_nonvacuous : 2 <= length (fz_factors ex_fz) /\ (forall f, In f (fz_factors ex_fz) -> sgood two f) /\ sgood two gx_a /\ svars gx_a <> [] /\
  (forall g, In g (fz_factors ex_fz) -> ~ zclose g gx_a) /\ exists g, In g (fz_factors ex_fz) /\ incl (svars gx_a) (svars g).
Proof. exact div_hyps. Qed.
(** What holds: the quotient of a single factor. *)
Theorem c153_single_partial card o o' a f g : oracle_ok o -> fz_factors a = [g] -> sgood card g -> sgood card f -> svars f <> [] -> incl (svars f) (svars g) ->
  exists r j, fz_divide o a f = Ok r /\ fz_joint o' r = Ok j /\ (forall v, In v (svars j) <-> In v (svars g)) /\
    forall e, in_range g e -> spot f e <> 0%R -> spot j e = (spot g e / spot f e)%R.
Proof. exact (fz_divide_one card o o' a f g). Qed.
Print Assumptions c153_single_partial.
Example c153_single_nonvacuous : sgood two gx_abc /\ sgood two gx_a /\ svars gx_a <> [] /\ incl (svars gx_a) (svars gx_abc) /\ exists e, in_range gx_abc e /\ spot gx_a e <> 0%R.
Proof. exact one_hyps. Qed.
(** And how far the result is from the quotient when the first close factor [g] is dropped. *)
Theorem c153_near_partial card o a f l1 g l2 : oracle_ok o -> (forall g, In g (fz_factors a) -> sgood card g) -> sgood card f ->
  fz_factors a = l1 ++ g :: l2 -> 1 < length (fz_factors a) -> (forall h, In h l1 -> ~ zclose h f) -> zclose g f ->
  exists r j jr, fz_divide o a f = Ok r /\ fz_joint o a = Ok j /\ fz_joint o r = Ok jr /\ (forall v, In v (svars jr) <-> zscope (l1 ++ l2) v) /\
    forall e, (spot f e = 0 /\ spot j e = 0)%R \/
      (0 < spot f e /\ exists d, Rabs d <= (1 + Rabs (ln (spot f e))) / 10000 /\ spot j e = spot jr e * spot f e * exp d)%R.
Proof. exact (fz_divide_near card o a f l1 g l2). Qed.
Print Assumptions c153_near_partial.
Example c153_near_nonvacuous : (forall f, In f (fz_factors (pair_fz (flat "x" 0) (flat "y" 1))) -> sgood two f) /\ sgood two (flat "x" tiny) /\
  fz_factors (pair_fz (flat "x" 0) (flat "y" 1)) = [] ++ flat "x" 0 :: [flat "y" 1] /\ 1 < length (fz_factors (pair_fz (flat "x" 0) (flat "y" 1))) /\
  (forall h, In h [] -> ~ zclose h (flat "x" tiny)) /\ zclose (flat "x" 0) (flat "x" tiny).
Proof. exact removal_hyps. Qed.
Theorem c153_constant_error card o a f : oracle_ok o -> fz_factors a <> [] -> (forall g, In g (fz_factors a) -> sgood card g) -> sgood card f -> svars f = [] ->
  (length (fz_factors a) <= 1 \/ forall g, In g (fz_factors a) -> ~ zclose g f) -> fz_divide o a f = Err TypeError.
Proof. exact (fz_divide_constant card o a f). Qed.
Print Assumptions c153_constant_error.
Example c153_constant_nonvacuous : sgood two unit_table /\ svars unit_table = [] /\ forall g, In g (fz_factors ex_fz) -> ~ zclose g unit_table.
Proof. exact constant_hyps. Qed.
Theorem c153_uncovered_error card o a f : (forall g, In g (fz_factors a) -> sgood card g) -> sgood card f -> (forall g, In g (fz_factors a) -> ~ incl (svars f) (svars g)) ->
  fz_divide o a f = Err PyException.
Proof. exact (fz_divide_disjoint card o a f). Qed.
Print Assumptions c153_uncovered_error.
Example c153_uncovered_nonvacuous : (forall f, In f (fz_factors (pair_fz (flat "x" 0) (flat "y" 1))) -> sgood two f) /\ sgood two flat2 /\
  forall g, In g (fz_factors (pair_fz (flat "x" 0) (flat "y" 1))) -> ~ incl (svars flat2) (svars g).
Proof. exact disjoint_hyps. Qed.

(** C154: marginals, evidence, normalisation and display. *)
Theorem c154_marginal_refuted o : oracle_ok o -> exists a j m, (forall g, In g (fz_factors a) -> sgood two g) /\ fz_joint o a = Ok j /\
  s_marginalize o j ["x"] true = Ok m /\ forall r, fz_marginalize o a ["x"] true <> Ok r.
Proof. exact (marginal_refuted o). Qed.
Print Assumptions c154_marginal_refuted.
Theorem c154_marginalize_never o a vrs keep r : fz_marginalize o a vrs keep <> Ok r.
Proof. exact (fz_marginalize_fails o a vrs keep r). Qed.
Print Assumptions c154_marginalize_never.
Theorem c154_reduce_never a vrs values r : fz_reduce a vrs values <> Ok r.
Proof. exact (fz_reduce_fails a vrs values r). Qed.
Print Assumptions c154_reduce_never.
(** Which error: the methods run until they read an attribute that tables lack. *)
Theorem c154_marginalize_error card o a vrs keep : oracle_ok o -> (forall f, In f (fz_factors a) -> sgood card f) ->
  (exists f v, In f (fz_factors a) /\ In v (svars f) /\ In v (GaussModel.marginal_vars o (fz_vars a) vrs keep)) ->
  fz_marginalize o a vrs keep = Err AttributeError.
Proof. exact (fz_marginalize_error card o a vrs keep). Qed.
Print Assumptions c154_marginalize_error.
Theorem c154_marginalize_nothing_error o a vrs keep : (forall f v, In f (fz_factors a) -> In v (GaussModel.marginal_vars o (fz_vars a) vrs keep) -> ~ In v (svars f)) ->
  fz_marginalize o a vrs keep = Err PyException.
Proof. exact (fz_marginalize_nothing o a vrs keep). Qed.
Print Assumptions c154_marginalize_nothing_error.
Example c154_nothing_nonvacuous : forall f v, In f (fz_factors ex_fz) -> In v (GaussModel.marginal_vars io (fz_vars ex_fz) ["x"] true) -> ~ In v (svars f).
Proof. intros f v [<-|[<-|[]]] [<-|[]] H; cbn in H; repeat (destruct H as [E|H]; [discriminate E|]); exact H. Qed.
(** Also for evidence that some assignment [e0] stored in every table agrees with. *)
Theorem c154_reduce_error card a vrs e0 : fz_factors a <> [] -> (forall f, In f (fz_factors a) -> sgood card f) -> NoDup vrs ->
  (forall f, In f (fz_factors a) -> exists v, In (map e0 (svars f), v) (stbl f)) ->
  fz_reduce a vrs (map e0 vrs) = Err AttributeError.
Proof. exact (fz_reduce_error card a vrs e0). Qed.
Print Assumptions c154_reduce_error.
Example c154_marginalize_nonvacuous : (forall f, In f (fz_factors ex_fz) -> sgood two f) /\
  (exists f v, In f (fz_factors ex_fz) /\ In v (svars f) /\ In v (GaussModel.marginal_vars io (fz_vars ex_fz) ["a"; "1#c"] true)) /\
  fz_factors ex_fz <> [] /\ forall f, In f (fz_factors ex_fz) -> exists v, In (map (fun _ => 1) (svars f), v) (stbl f).
Proof. exact error_hyps. Qed.
Theorem c154_vacuous_error a : fz_factors a <> [] -> fz_is_vacuous a = Err AttributeError.
Proof. exact (fz_vacuous_fails a). Qed.
Print Assumptions c154_vacuous_error.
Theorem c154_show_error a : fz_factors a <> [] -> fz_show a = Err TypeError.
Proof. exact (fz_show_fails a). Qed.
Print Assumptions c154_show_error.
Theorem c154_normalize_error card o a : (forall f, In f (fz_factors a) -> sgood card f) -> 2 <= length (fz_factors a) -> fz_normalize o a = Err AttributeError.
Proof. exact (fz_normalize_fails card o a). Qed.
Print Assumptions c154_normalize_error.
Example c154_error_nonvacuous : fz_factors ex_fz <> [] /\ (forall f, In f (fz_factors ex_fz) -> sgood two f) /\ 2 <= length (fz_factors ex_fz).
Proof. split; [discriminate|]. split; [exact ex_all|cbn; lia]. Qed.
(** What works: normalising a single factor. *)
Theorem c154_normalize_partial card o a f : fz_factors a = [f] -> sgood card f -> (0 < weight_of f)%R ->
  exists r g, fz_normalize o a = Ok r /\ fz_factors r = [g] /\ svars g = svars f /\
    (forall e, spot g e = (spot f e / weight_of f)%R) /\ weight_of g = 1%R.
Proof. exact (fz_normalize_one card o a f). Qed.
Print Assumptions c154_normalize_partial.
Example c154_normalize_nonvacuous : sgood two gx_abc /\ (0 < weight_of gx_abc)%R.
Proof. exact (conj gx_abc_good (proj1 (proj2 (proj2 (proj2 (proj2 (proj2 (kl_hyps io io_ok)))))))). Qed.

(** C155: equality and divergences. *)
Theorem c155_reflexive_refuted o : exists a, (forall f, In f (fz_factors a) -> sgood two f) /\ fz_equals o a a = Ok false.
Proof. exact (equals_refl_refuted o). Qed.
Print Assumptions c155_reflexive_refuted.
Theorem c155_different_refuted o : exists a b, (forall f, In f (fz_factors a) -> sgood two f) /\ (forall f, In f (fz_factors b) -> sgood two f) /\
  fz_equals o a b = Ok true /\ exists e, (forall f, In f (fz_factors a ++ fz_factors b) -> in_range f e) /\ zprod (fz_factors a) e <> zprod (fz_factors b) e.
Proof. exact (equals_different_refuted o). Qed.
Print Assumptions c155_different_refuted.
Theorem c155_reflexive_partial card o a : (forall f, In f (fz_factors a) -> sgood card f) ->
  ForallOrdPairs (fun f g => ~ zclose f g /\ ~ zclose g f) (fz_factors a) -> fz_equals o a a = Ok true.
Proof. exact (fz_equals_refl card o a). Qed.
Print Assumptions c155_reflexive_partial.
Example c155_reflexive_nonvacuous : (forall f, In f (fz_factors (dupl (flat "x" 0) (flat "x" 1))) -> sgood two f) /\
  ForallOrdPairs (fun f g => ~ zclose f g /\ ~ zclose g f) (fz_factors (dupl (flat "x" 0) (flat "x" 1))).
Proof. exact refl_hyps. Qed.
Theorem c155_equal_partial card o a b : (forall f, In f (fz_factors a) -> sgood card f) -> (forall f, In f (fz_factors b) -> sgood card f) ->
  (forall v, In v (fz_vars a) <-> In v (fz_vars b)) ->
  length (fz_factors a) = length (fz_factors b) -> zsep_rows (fz_factors a) (fz_factors b) -> zsep_cols (fz_factors a) (fz_factors b) ->
  exists r, fz_equals o a b = Ok r /\ (r = true <-> exists bs, Permutation bs (fz_factors b) /\ Forall2 zclose (fz_factors a) bs).
Proof. exact (fz_equals_iff card o a b). Qed.
Print Assumptions c155_equal_partial.
Example c155_equal_nonvacuous : zsep_rows [flat "x" 0; flat "x" 1] [flat "x" 1; flat "x" 0] /\ zsep_cols [flat "x" 0; flat "x" 1] [flat "x" 1; flat "x" 0].
Proof. exact sep_hyps. Qed.
Theorem c155_shapes_partial card o a b : oracle_ok o -> fz_factors a <> [] -> fz_factors b <> [] ->
  (forall f, In f (fz_factors a) -> sgood card f) -> (forall f, In f (fz_factors b) -> sgood card f) ->
  (forall v, In v (fz_vars a) <-> In v (fz_vars b)) -> length (fz_factors a) <> length (fz_factors b) ->
  exists r ja jb, fz_equals o a b = Ok r /\ sgood card ja /\ sgood card jb /\
    (forall e, spot ja e = zprod (fz_factors a) e) /\ (forall e, spot jb e = zprod (fz_factors b) e) /\ (r = true <-> zclose ja jb).
Proof. exact (fz_equals_shapes card o a b). Qed.
Print Assumptions c155_shapes_partial.
Theorem c155_scope_partial o a b v : (In v (fz_vars a) /\ ~ In v (fz_vars b)) \/ (~ In v (fz_vars a) /\ In v (fz_vars b)) -> fz_equals o a b = Ok false.
Proof. exact (fz_equals_scope o a b v). Qed.
Print Assumptions c155_scope_partial.
Example c155_scope_nonvacuous : In "a" (fz_vars ex_fz) /\ ~ In "a" (fz_vars (dupl (flat "x" 0) (flat "x" 1))).
Proof. split; [cbn; tauto|]. intros [E|[]]. discriminate E. Qed.
(** An argument that is a table. *)
Theorem c155_table_partial card o a f : oracle_ok o -> 2 <= length (fz_factors a) -> (forall g, In g (fz_factors a) -> sgood card g) -> sgood card f ->
  (forall v, In v (fz_vars a) <-> In v (svars f)) ->
  exists r ja jb, fz_equals_table o a f = Ok r /\ sgood card ja /\ sgood card jb /\
    (forall e, spot ja e = zprod (fz_factors a) e) /\ (forall e, spot jb e = spot f e) /\ (r = true <-> zclose ja jb).
Proof. exact (fz_equals_table_spec card o a f). Qed.
Print Assumptions c155_table_partial.
Example c155_table_nonvacuous : (exists o, oracle_ok o) /\ 2 <= length (fz_factors ex_fz) /\ (forall g, In g (fz_factors ex_fz) -> sgood two g) /\
  sgood two gx_abc /\ forall v, In v (fz_vars ex_fz) <-> In v (svars gx_abc).
Proof. split; [exists io; exact io_ok|]. split; [cbn; lia|]. split; [exact ex_all|]. split; [exact gx_abc_good|]. cbn. tauto. Qed.
(** The divergence from a table is that of the normalised product. *)
Theorem c155_divergence card o a q : oracle_ok o -> fz_factors a <> [] -> (forall f, In f (fz_factors a) -> sgood card f) -> sgood card q ->
  (forall v, zscope (fz_factors a) v <-> In v (svars q)) ->
  svars q <> [] -> (0 < weight_of q)%R -> exists j, fz_joint o a = Ok j /\ (forall e, spot j e = zprod (fz_factors a) e) /\ (forall v, In v (svars j) <-> In v (svars q)) /\
  ((0 < weight_of j)%R -> exists d, fz_kl o a q = Ok d /\
    ((exists e, in_range j e /\ 0 < zprod (fz_factors a) e /\ spot q e = 0)%R -> d = PInf) /\
    (~ (exists e, in_range j e /\ 0 < zprod (fz_factors a) e /\ spot q e = 0)%R -> d = Fin (kl_of j q) /\ (0 <= kl_of j q)%R) /\
    (d = Fin 0 <-> forall e, in_range j e -> (zprod (fz_factors a) e / weight_of j = spot q e / weight_of q)%R)).
Proof. exact (fz_kl_spec card o a q). Qed.
Print Assumptions c155_divergence.
Example c155_divergence_nonvacuous : fz_factors ex_fz <> [] /\ (forall f, In f (fz_factors ex_fz) -> sgood two f) /\ sgood two gx_abc /\
  (forall v, zscope (fz_factors ex_fz) v <-> In v (svars gx_abc)) /\ svars gx_abc <> [] /\ (0 < weight_of gx_abc)%R /\
  exists j, fz_joint io ex_fz = Ok j /\ (0 < weight_of j)%R.
Proof. exact (kl_hyps io io_ok). Qed.
Theorem c155_distance card o a v : oracle_ok o -> (forall f, In f (fz_factors a) -> sgood card f) -> zscope (fz_factors a) v -> exists j, fz_joint o a = Ok j /\
  (forall w, In w (svars j) <-> zscope (fz_factors a) w) /\ (forall e, spot j e = zprod (fz_factors a) e) /\
  ((0 < weight_of j)%R ->
   let D := sum_over (card_of j) (svars j) (fun e => kl_term (zprod (fz_factors a) e / weight_of j) (1 / INR (n_assignments j)))%R (fun _ => 0) in
   fz_distance o a = Ok (Fin D) /\ (0 <= D)%R /\
   (D = 0%R <-> forall e e', in_range j e -> in_range j e' -> zprod (fz_factors a) e = zprod (fz_factors a) e')).
Proof. exact (fz_distance_spec card o a v). Qed.
Print Assumptions c155_distance.
Example c155_distance_nonvacuous : (forall f, In f (fz_factors ex_fz) -> sgood two f) /\ zscope (fz_factors ex_fz) "a" /\ exists j, fz_joint io ex_fz = Ok j /\ (0 < weight_of j)%R.
Proof. split; [exact ex_all|]. split; [exists gx_ab; split; now left|]. exact (proj2 (proj2 (proj2 (proj2 (proj2 (proj2 (kl_hyps io io_ok))))))). Qed.
