(** Model of what the factors and messages print: gaussian.py __repr__, show and show_vis,
    gaussian_mixture.py show, nonlinear_gaussian.py show, _cluster.py Message.__repr__ and
    remove_all_neighbours.

    A printed text is a list of items: a label with the array, number or flag printed after it.
    Simplification: how numpy writes an array (rounding to four digits, line breaks) is not
    modelled; an item holds the array itself. *)
From Coq Require Import String List.
Import ListNotations.
From Verif Require Export GaussModel GraphModel MixModel NlgModel.
Local Open Scope string_scope.
Local Open Scope nat_scope.
Local Open Scope list_scope.

Inductive item :=
| INames (label : string) (names : list string)
| IArr (label : string) (A : mat)
| INum (label : string) (x : val)
| IFlag (label : string) (b : bool)
| IPart (i n : nat)          (* "component i / n", "NLG i" *)
| IText (s : string).

(** gaussian.py:855-876 _get_cov_repr_str: from a copy. *)
Definition cov_items (f : gauss) : res (list item) :=
  let* c := g_copy f in
  let* c' := update_covform c in
  match ga_cov c' with
  | Some (C, m, w) => Ok [IArr "cov" C; IArr "mean" m; INum "log_weight" w]
  | None => Err AssertionError
  end.
(** gaussian.py:878-902 _get_can_repr_str: from a copy. *)
Definition can_items (f : gauss) : res (list item) :=
  let* c := g_copy f in
  let* c' := update_canform c in
  match ga_can c' with
  | Some (K, h, g) => Ok [IArr "prec" K; IArr "h" h; INum "g" g; IFlag "is_vacuous" (ga_vac c')]
  | None => Err AssertionError
  end.
(** gaussian.py:904-919 __repr__. *)
Definition g_repr (f : gauss) : res (list item) :=
  let* l := if negb (ga_vac f) then can_items f else Ok [] in
  let* m := cov_items f in
  Ok (INames "vars" (ga_vars f) :: l ++ m).
(** gaussian.py:921-932 show. *)
Definition g_show (f : gauss) : res (list item) :=
  let* l := match ga_cov f with Some _ => cov_items f | None => Ok [] end in
  let* m := match ga_can f with Some _ => can_items f | None => Ok [] end in
  Ok (INames "vars" (ga_vars f) :: l ++ m).
(** gaussian.py:934-948 show_vis: a heat map and bars, labelled with the variables; the object
    afterwards comes first, since [get_cov] converts the object itself. *)
Record vis := { vi_heat : mat; vi_rows : list string; vi_cols : list string; vi_bars : mat; vi_ticks : list string }.
Definition g_show_vis (f : gauss) : res (gauss * vis) :=
  let* p := get_cov f in
  let '(f', (C, m, _)) := p in
  let* _ := raise_if (negb (Nat.eqb (nr C) (length (ga_vars f')) && Nat.eqb (nc C) (length (ga_vars f')))) ValueError in
  let* _ := raise_if (negb (Nat.eqb (nr m) (length (ga_vars f')) && Nat.eqb (nc m) 1)) ValueError in
  Ok (f', {| vi_heat := C; vi_rows := ga_vars f'; vi_cols := ga_vars f'; vi_bars := m; vi_ticks := ga_vars f' |}).

(** gaussian_mixture.py:428-434 show. *)
Definition shows {A} (sh : A -> res (list item)) (xs : list A) : res (list item) :=
  let* ls := mapM (fun ix => let* l := sh (snd ix) in Ok (IPart (fst ix) (length xs) :: l)) (combine (seq 0 (length xs)) xs) in
  Ok (concat ls).
Definition mix_show (a : gmix) : res (list item) := shows g_show (gm_comps a).

(** nonlinear_gaussian.py:454-479 show ([_joint_distribution] is never None: the constructor makes a
    vacuous one).  The object afterwards comes first.  The transformation itself is printed as a
    text that says nothing about it and is left out. *)
Definition opt_show (f : option gauss) : res (list item) :=
  match f with Some g => g_show g | None => Ok [IText "vacuous"] end.
Definition nl_show (o : oracle) (f : nlg) : res (nlg * list item) :=
  let* f' := nl_recompute o f in
  let* j := g_show (nl_joint f') in
  let* u := opt_show (nl_upd f') in
  let* c := opt_show (nl_cond f') in
  Ok (f', [IText "Non-linear Gaussian"; INames "conditioning variables:" (nl_cing f); INames "conditional variables:" (nl_cal f);
           IArr "noise covariance" (nl_Q f); IText "joint_distribution"] ++ j ++
          [IText "conditional update distribution"] ++ u ++ [IText "conditioning distribution"] ++ c).

(** _cluster.py:204-221 Message.__repr__; [rep] is the factor's __repr__. *)
Definition newline : string := String (Ascii.ascii_of_nat 10) EmptyString.
Definition msg_repr {F} (rep : F -> res string) (m : msg F) : res string :=
  let* r := rep (m_fac m) in
  Ok ("sender_id: " ++ m_snd m ++ newline ++ "receiver_id: " ++ m_rcv m ++ newline ++ "factor: " ++ newline ++ r)%string.

(** _cluster.py:50-54 remove_all_neighbours: only the sepsets are forgotten. *)
Definition remove_all_neighbours {F V} (c : cluster F V) : cluster F V :=
  {| cl_fac := cl_fac c; cl_id := cl_id c; cl_seps := []; cl_recv := cl_recv c; cl_out := cl_out c; cl_spec := cl_spec c |}.
(** _cluster.py:121-131 get_sepset and 133-138 neighbour_ids. *)
Definition get_sepset {F V} (c : cluster F V) (nid : string) : res (list string) := dget_r (cl_seps c) nid.
Definition neighbour_ids {F V} (c : cluster F V) : list string := dkeys (cl_seps c).
