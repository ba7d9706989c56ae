(** Gaussian mixtures as the factors of a cluster graph. *)
From Verif Require Export GraphModel MixModel.

(** gaussian_mixture.py:139-158 multiply, 160-187 divide (cancel is that of _factor.py), 205-219
    marginalize, 189-203 reduce; 221-229 distance_from_vacuous and 231-240 kl_divergence raise
    NotImplementedError. *)
Definition mix_ops (o : oracle) : fops gmix R :=
  {| f_vars := gm_vars; f_mul := mix_multiply; f_cancel := mix_divide;
     f_marg := fun f vs => mix_marginalize o f vs true; f_reduce := mix_reduce;
     f_dist := fun _ => Err NotImplementedError;
     f_kl := fun _ _ => Err NotImplementedError |}.
