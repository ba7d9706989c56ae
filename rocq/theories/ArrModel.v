(** The distribution arrays of the table classes.  A row is the assignment and the value that
    follows it; numpy stores both as floats. *)
From Verif Require Export SparseModel DenseModel.

(** sparse_categorical.py:837-844 dense_distribution_array. *)
Definition s_dense_array (f : sparse) : res (list (list nat * val)) :=
  let* d := s_make_dense f in
  Ok (map (fun kv => (fst kv, vexp (snd kv))) (stbl d)).
(** categorical.py:519-531 dense_distribution_array. *)
Definition d_dense_array (f : dense) : list (list nat * val) :=
  map (fun i => (i, vexp (tget (dtens f) i))) (tindices (dtens f)).
