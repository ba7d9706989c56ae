(** Observations through the alias of the base class. *)
From Verif Require Export GraphModel SparseModel DenseModel GaussModel.
(** _factor.py:166-174 observe: calls reduce of the class ([red]). *)
Definition observe {F V} (red : F -> list string -> list V -> res F) (f : F) (vrs : list string) (values : list V) : res F := red f vrs values.
