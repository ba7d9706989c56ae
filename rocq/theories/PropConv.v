(** C114-C116: distribution arrays, conversion of arguments, the Gaussian constructor. *)
From Coq Require Import Sorted String Lia Lra.
From Verif Require Import ConvEx SparseExamples DenseExamples BaseFacts.
Local Open Scope string_scope.
Local Open Scope nat_scope.
Local Open Scope list_scope.


(** C114: the array of a dense table lists every assignment once, in lexicographic order, with its potential. *)

Theorem c114_dense_array : forall f : dense, wf_dense f ->
  StronglySorted lex_lt (map fst (d_dense_array f)) /\
  (forall k x, In (k, x) (d_dense_array f) <-> exists e, d_in_range f e /\ k = map e (dvars f) /\ x = Fin (dpot f e)) /\
  Rsum (map (fun r => numv (snd r)) (d_dense_array f)) = d_weight_of f.
Proof. exact d_array_spec. Qed.
Print Assumptions c114_dense_array.

(** The array of a sparse table also lists the assignments that are not stored, whatever the default. *)

Theorem c114_sparse_array : forall f : sparse, wf_sparse f -> is_lp (sdef f) ->
  exists rows, s_dense_array f = Ok rows /\ NoDup (map fst rows) /\
  (forall k x, In (k, x) rows <-> exists e, in_range f e /\ k = map e (svars f) /\ x = Fin (spot f e)) /\
  Rsum (map (fun r => numv (snd r)) rows) = weight_of f.
Proof. exact s_array_spec. Qed.
Print Assumptions c114_sparse_array.

(** The [weight] of a sparse table with a default that is not zero is not the sum of that array. *)

Theorem c114_sparse_weight_refuted : exists f w rows, wf_sparse f /\ is_lp (sdef f) /\ stbl f <> [] /\ s_weight f = Ok (Fin w) /\
  s_dense_array f = Ok rows /\ weight_of f = Rsum (map (fun r => numv (snd r)) rows) /\ w <> weight_of f.
Proof. exact weight_default_refuted. Qed.
Print Assumptions c114_sparse_weight_refuted.

Example c114_nonvacuous : wf_dense ed_ab /\ wf_sparse ex_ab_fin /\ is_lp (sdef ex_ab_fin) /\
  exists rows, s_dense_array ex_ab_fin = Ok rows /\ length rows = 6.
Proof. split; [apply ed_ab_wf|]. split; [apply ex_ab_fin_wf|]. split; [exact I|]. eexists. split; reflexivity. Qed.


(** C115: every documented form of a matrix, a vector or a number is accepted and means it. *)

Theorem c115_square : forall (n : nat) (M : nat -> nat -> R) (x : pyobj), square_repr n M x ->
  exists a, to_square x = Ok a /\ means n M (square_of a).
Proof. exact to_square_repr. Qed.
Print Assumptions c115_square.

Theorem c115_column : forall (n : nat) (m : nat -> R) (x : pyobj), column_repr n m x ->
  exists d, to_column x = Ok d /\ length d = n /\ means_col n m (column_of d).
Proof. exact to_column_repr. Qed.
Print Assumptions c115_column.

Theorem c115_scalar : forall (w : val) (x : pyobj), scalar_repr w x -> exists y, make_scalar x = Ok y /\ number_of y = w.
Proof. exact make_scalar_repr. Qed.
Print Assumptions c115_scalar.

(** Whatever is accepted becomes a square array, resp. a column, of the entries of the argument. *)

Theorem c115_square_sound : forall (x : pyobj) (a : ndarr), sized x -> to_square x = Ok a ->
  exists n, fst a = [n; n] /\ snd a = np_data x /\ length (snd a) = n * n.
Proof. exact to_square_sound. Qed.
Print Assumptions c115_square_sound.

Theorem c115_column_sound : forall (x : pyobj) (d : list (option val)), to_column x = Ok d -> d = np_data x.
Proof. exact to_column_sound. Qed.
Print Assumptions c115_column_sound.

Theorem c115_scalar_sound : forall x y : pyobj, make_scalar x = Ok y ->
  (exists v, x = PNum v /\ y = x) \/ x = PList [y] \/ exists b s d, x = PArr b (1 :: s) d /\ In (number_of y) d.
Proof. exact make_scalar_sound. Qed.
Print Assumptions c115_scalar_sound.

Theorem c115_scalar_error :
  (forall l, length l <> 1 -> make_scalar (PList l) = Err ValueError) /\ (forall b n s d, n <> 1 -> make_scalar (PArr b (n :: s) d) = Err ValueError) /\
  (forall l, make_scalar (PTuple l) = Err TypeError) /\ (forall t, make_scalar (PStr t) = Err TypeError) /\ make_scalar PNone = Err TypeError.
Proof. exact make_scalar_error. Qed.
Print Assumptions c115_scalar_error.


(** What is not square is rejected. *)

Theorem c115_list_error : forall l : list pyobj, 2 <= length l ->
  (exists x, In x l /\ forall r, x = PList r -> length r <> length l) -> to_square (PList l) = Err ValueError.
Proof. exact to_square_list_error. Qed.
Print Assumptions c115_list_error.

Theorem c115_array_error : forall (b : bool) (s : list nat) (d : list val), (forall n, s <> [n; n]) ->
  to_square (PArr b s d) = Err ValueError \/ to_square (PArr b s d) = Err AssertionError.
Proof. exact to_square_array_error. Qed.
Print Assumptions c115_array_error.

Theorem c115_matrix_column_error : forall (b : bool) (n m : nat) (d : list val), 1 < n -> 1 < m -> to_column (PArr b [n; m] d) = Err AssertionError.
Proof. exact to_column_matrix_error. Qed.
Print Assumptions c115_matrix_column_error.

(** A numpy integer is no number, and inside [[ ]] it leads to an unbound local variable, although lists of
    several numpy integers are accepted. *)

Theorem c115_numpy_integer_refuted : forall v : val,
  to_square (PList [PList [PNpInt v]]) = Err UnboundLocalError /\ to_square (PList [PNpInt v]) = Err TypeError /\
  to_square (PNpInt v) = Err ValueError /\ make_scalar (PNpInt v) = Err TypeError.
Proof. exact one_by_one. Qed.
Print Assumptions c115_numpy_integer_refuted.

Theorem c115_numpy_integers : forall a b c d : val,
  to_square (PList [PList [PNpInt a; PNpInt b]; PList [PNpInt c; PNpInt d]]) = Ok ([2; 2], [Some a; Some b; Some c; Some d]).
Proof. exact two_by_two. Qed.
Print Assumptions c115_numpy_integers.

(** The same matrix is refused as an array and flattened as a list; arrays with three axes are flattened. *)

Theorem c115_column_refuted : exists x y, np_array x = np_array y /\ np_shape x = Some [2; 2] /\ to_column x = Err AssertionError /\
  exists d, to_column y = Ok d /\ length d = 4.
Proof. exact column_refuted. Qed.
Print Assumptions c115_column_refuted.

Theorem c115_column_axes_refuted : exists x d, np_shape x = Some [1; 2; 3] /\ to_column x = Ok d /\ length d = 6.
Proof. exact column_refuted_axes. Qed.
Print Assumptions c115_column_axes_refuted.

(** An array with three entries is taken as a number, and a list can be returned as a number. *)

Theorem c115_scalar_refuted : exists x y, np_shape x = Some [1; 3] /\ np_data x = [Some (Fin 7); Some (Fin 5); Some (Fin 6)] /\
  make_scalar x = Ok y /\ y = PNum (Fin 5).
Proof. exact scalar_refuted. Qed.
Print Assumptions c115_scalar_refuted.

Theorem c115_scalar_list_refuted : exists x l, make_scalar x = Ok (PList l).
Proof. exact scalar_refuted_list. Qed.
Print Assumptions c115_scalar_list_refuted.

Definition ex_cov : nat -> nat -> R := fun i j => if Nat.eqb i j then 2%R else 1%R.
Definition ex_mean : nat -> R := fun i => INR i.
Definition ex_rows : pyobj := PList [PList [PNum (Fin 2); PNum (Fin 1)]; PList [PNum (Fin 1); PNum (Fin 2)]].
Example c115_nonvacuous : square_repr 2 ex_cov ex_rows /\ square_repr 2 ex_cov (PArr false [2; 2] [Fin 2; Fin 1; Fin 1; Fin 2]) /\
  column_repr 2 ex_mean (PList [PNum (Fin 0); PNum (Fin 1)]) /\ scalar_repr (Fin 3) (PList [PNum (Fin 3)]) /\ sized ex_rows /\
  to_square ex_rows = Ok ([2; 2], [Some (Fin 2); Some (Fin 1); Some (Fin 1); Some (Fin 2)]).
Proof.
  split; [apply (sq_rows 2 ex_cov); lia|]. split; [apply (sq_array 2 ex_cov)|]. split; [apply (co_list 2 ex_mean); lia|]. split; [apply sc_list|]. split; [now repeat split|]. reflexivity.
Qed.
Example c115_errors_nonvacuous : to_square (PList [PNum (Fin 1); PNum (Fin 2)]) = Err ValueError /\
  (forall n, [2; 3] <> [n; n]) /\ (exists x, In x [PNum (Fin 1); PNum (Fin 2)] /\ forall r, x = PList r -> length r <> 2).
Proof. split; [reflexivity|]. split; [intros n H; injection H as <- H; discriminate|]. exists (PNum (Fin 1)). split; [now left|discriminate]. Qed.


(** C116: with documented parameters of the right sizes the constructor makes the factor that has them. *)

Theorem c116_covariance : forall (vs : list string) (n : nat) C m w (cov mean lw : pyobj), NoDup vs -> length vs = n ->
  square_repr n C cov -> column_repr n m mean -> scalar_repr w lw ->
  exists f C' m', gaussian_init (Some (NList vs)) (Some cov) (Some mean) (Some lw) None None None = Ok f /\
    ga_vars f = vs /\ ga_vac f = false /\ ga_can f = None /\ ga_cov f = Some (C', m', w) /\ means n C C' /\ means_col n m m'.
Proof. exact gaussian_init_cov. Qed.
Print Assumptions c116_covariance.

Theorem c116_canonical : forall (vs : list string) (n : nat) K h g (prec h_vec g_val : pyobj) (cov mean lw : option pyobj), NoDup vs -> length vs = n ->
  square_repr n K prec -> column_repr n h h_vec -> scalar_repr g g_val ->
  exists f K' h', gaussian_init (Some (NList vs)) cov mean lw (Some prec) (Some h_vec) (Some g_val) = Ok f /\
    ga_vars f = vs /\ ga_cov f = None /\ ga_can f = Some (K', h', g) /\ means n K K' /\ means_col n h h' /\
    (ga_vac f = true -> forall i j, i < n -> j < n -> (Rabs (K i j) <= 1 / 100000000)%R) /\
    ((forall i j, i < n -> j < n -> K i j = 0%R) -> 0 < n -> ga_vac f = true).
Proof. exact gaussian_init_can. Qed.
Print Assumptions c116_canonical.

(** Missing names, duplicate names, incomplete parameters and wrong sizes are rejected. *)

Theorem c116_missing_names : forall cov mean lw prec h g, gaussian_init None cov mean lw prec h g = Err ValueError.
Proof. exact gaussian_init_missing. Qed.
Print Assumptions c116_missing_names.

Theorem c116_duplicates : forall (vs : list string) cov mean lw prec h g, ~ NoDup vs -> gaussian_init (Some (NList vs)) cov mean lw prec h g = Err ValueError.
Proof. exact gaussian_init_dup. Qed.
Print Assumptions c116_duplicates.

Theorem c116_incomplete : forall (vs : list string) cov mean lw prec h g,
  (prec = None /\ h = None /\ g = None /\ (cov = None \/ mean = None \/ lw = None)) \/
  (~ (prec = None /\ h = None /\ g = None) /\ (prec = None \/ h = None \/ g = None)) ->
  gaussian_init (Some (NList vs)) cov mean lw prec h g = Err ValueError.
Proof. exact gaussian_init_incomplete. Qed.
Print Assumptions c116_incomplete.

Theorem c116_mean_size : forall (vs : list string) (n k : nat) C m (cov mean lw : pyobj), length vs = n -> NoDup vs -> square_repr n C cov -> column_repr k m mean -> k <> n ->
  gaussian_init (Some (NList vs)) (Some cov) (Some mean) (Some lw) None None None = Err AssertionError.
Proof. exact gaussian_init_mismatch. Qed.
Print Assumptions c116_mean_size.

Theorem c116_covariance_size : forall (vs : list string) (n : nat) C (cov mean lw : pyobj), length vs <> n -> NoDup vs -> square_repr n C cov -> (exists k m, column_repr k m mean) ->
  gaussian_init (Some (NList vs)) (Some cov) (Some mean) (Some lw) None None None = Err AssertionError.
Proof. exact gaussian_init_mismatch_cov. Qed.
Print Assumptions c116_covariance_size.

(** A name given as a string: its length is the dimension, and repeated characters are duplicates. *)

Theorem c116_name_refuted : exists (s : string) C m w,
  square_repr 1 C (PNum (Fin 1)) /\ column_repr 1 m (PNum (Fin 0)) /\ scalar_repr w (PNum (Fin 0)) /\
  gaussian_init (Some (NStr s)) (Some (PNum (Fin 1))) (Some (PNum (Fin 0))) (Some (PNum (Fin 0))) None None None = Err AssertionError.
Proof. exact name_refuted. Qed.
Print Assumptions c116_name_refuted.

Theorem c116_name_duplicates_refuted : exists s, forall cov mean lw prec h g, gaussian_init (Some (NStr s)) cov mean lw prec h g = Err ValueError.
Proof. exact name_refuted_dup. Qed.
Print Assumptions c116_name_duplicates_refuted.

Theorem c116_name_dimension_refuted : exists s cov mean lw f C m w, gaussian_init (Some (NStr s)) (Some cov) (Some mean) (Some lw) None None None = Ok f /\
  ga_cov f = Some (C, m, w) /\ nr C = 2 /\ nr m = 2 /\ ga_vars f = [s].
Proof. exact name_refuted_dim. Qed.
Print Assumptions c116_name_dimension_refuted.

(** Next to a canonical parameter the covariance parameters are ignored, valid or not. *)

Theorem c116_covariance_ignored : forall vs cov mean lw cov' mean' lw' prec h g, (prec <> None \/ h <> None \/ g <> None) ->
  gaussian_init vs cov mean lw prec h g = gaussian_init vs cov' mean' lw' prec h g.
Proof. exact cov_ignored. Qed.
Print Assumptions c116_covariance_ignored.

Theorem c116_conflict_refuted : exists vs cov mean lw prec h g f,
  gaussian_init vs (Some cov) (Some mean) (Some lw) (Some prec) (Some h) (Some g) = Ok f /\ to_square cov = Err ValueError.
Proof. exact conflict_refuted. Qed.
Print Assumptions c116_conflict_refuted.

Example c116_nonvacuous : exists f, gaussian_init (Some (NList ["a"; "b"])) (Some ex_rows) (Some (PList [PNum (Fin 0); PNum (Fin 1)])) (Some (PNum (Fin 3))) None None None = Ok f /\
  NoDup ["a"; "b"] /\ ga_vars f = ["a"; "b"].
Proof. eexists. split; [reflexivity|]. split; [|reflexivity]. repeat (constructor; [cbn; intuition discriminate|]). constructor. Qed.
Example c116_errors_nonvacuous : ~ NoDup ["a"; "a"] /\ column_repr 1 ex_mean (PNum (Fin 0)) /\ 1 <> 2 /\
  gaussian_init (Some (NList ["a"])) (Some (PNum (Fin 1))) None None None None None = Err ValueError.
Proof. split; [intros H; inversion H as [|? ? N]; apply N; now left|]. split; [now apply (co_num 1 ex_mean)|]. split; [lia|reflexivity]. Qed.

