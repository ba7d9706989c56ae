(** Operators between factors, and messages as objects.
    Simplification: both operands are of one class. *)
From Verif Require Export GraphModel SparseModel DenseModel GaussModel.
Local Open Scope string_scope.
Local Open Scope list_scope.

(** The methods of a class of factors that the operators use; [equals] with the default tolerances
    (veroku/_constants.py:5-6) in which [__eq__] leaves them. *)
Record methods (F : Type) := { me_mul : F -> F -> res F; me_div : F -> F -> res F; me_eq : F -> F -> res bool }.
Arguments me_mul {F} _ _ _.
Arguments me_div {F} _ _ _.
Arguments me_eq {F} _ _ _.
Inductive answer (F : Type) := AFac (f : F) | ABool (b : bool).
Arguments AFac {F} _.
Arguments ABool {F} _.
(** _factor.py:197-231: the special methods that Factor defines and no subclass overrides. *)
Definition specials {F} (M : methods F) : dict string (F -> F -> res (answer F)) :=
  [("__mul__", fun a b => let* r := me_mul M a b in Ok (AFac r));
   ("__div__", fun a b => let* r := me_div M a b in Ok (AFac r));
   ("__eq__", fun a b => let* r := me_eq M a b in Ok (ABool r));
   ("__ne__", fun a b => let* r := me_eq M a b in Ok (ABool (negb r)))].
(** Python 3: the special method of an operator; TypeError if the class has none (the reflected
    methods, which are tried as well, are not defined either). *)
Inductive operator := Times | Over | Same | Differ.
Definition special_name (op : operator) : string :=
  match op with Times => "__mul__" | Over => "__truediv__" | Same => "__eq__" | Differ => "__ne__" end.
Definition operate {F} (M : methods F) (op : operator) (a b : F) : res (answer F) :=
  match dget (specials M) (special_name op) with Some f => f a b | None => Err TypeError end.
(** _factor.py:124-132 absorb. *)
Definition absorb {F} (M : methods F) (a b : F) : res F := me_mul M a b.

(** sparse_categorical.py, categorical.py, gaussian.py: multiply, divide and equals. *)
Definition sparse_methods (o : oracle) : methods sparse :=
  {| me_mul := s_multiply o; me_div := s_divide o; me_eq := fun a b => s_equals a b default_tol default_tol |}.
Definition dense_methods : methods dense :=
  {| me_mul := d_multiply; me_div := d_divide; me_eq := fun a b => d_equals a b default_tol default_tol |}.
Definition gauss_methods : methods gauss :=
  {| me_mul := g_multiply; me_div := g_divide; me_eq := fun a b => let* r := g_equals a b default_tol default_tol in Ok (fst (fst r)) |}.

(** _cluster.py:186-202 Message.equals; [eqf] is [equals] of the factors. *)
Definition m_equals {F} (eqf : F -> F -> R -> R -> res bool) (a b : msg F) (rtol atol : R) : res bool :=
  if negb (eqb (m_snd a) (m_snd b)) then Ok false else
  if negb (eqb (m_rcv a) (m_rcv b)) then Ok false else
  let* r := eqf (m_fac a) (m_fac b) rtol atol in
  if negb r then Ok false else Ok true.
(** _cluster.py:278-286 Message.copy ([factor], 241-248, copies once more); the uuid is left out. *)
Definition m_copy {F} (cpf : F -> res F) (m : msg F) : res (msg F) :=
  let* f1 := cpf (m_fac m) in
  let* f2 := cpf f1 in
  Ok {| m_fac := f2; m_snd := m_snd m; m_rcv := m_rcv m |}.
