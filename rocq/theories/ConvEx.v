(** Counterexamples and examples for the conversions, the constructor and the distribution arrays. *)
From Coq Require Import Lia Lra String.
From Verif Require Export ConvFacts ArrFacts.
From Verif Require Import SparseExamples.
Local Open Scope string_scope.
Local Open Scope nat_scope.
Local Open Scope list_scope.

(** A one by one matrix of a numpy integer is refused with errors that are not about the
    argument, a two by two matrix of numpy integers is accepted. *)
Theorem one_by_one v : to_square (PList [PList [PNpInt v]]) = Err UnboundLocalError /\ to_square (PList [PNpInt v]) = Err TypeError /\ to_square (PNpInt v) = Err ValueError /\
  make_scalar (PNpInt v) = Err TypeError.
Proof. now repeat split. Qed.
Theorem two_by_two a b c d : to_square (PList [PList [PNpInt a; PNpInt b]; PList [PNpInt c; PNpInt d]]) = Ok ([2; 2], [Some a; Some b; Some c; Some d]).
Proof. reflexivity. Qed.
(** make_column_vector refuses a matrix given as an array and flattens the same matrix given as a
    list; an array with three axes is flattened when one of them has length one. *)
Theorem column_refuted : exists x y, np_array x = np_array y /\ np_shape x = Some [2; 2] /\ to_column x = Err AssertionError /\
  exists d, to_column y = Ok d /\ length d = 4.
Proof.
  exists (PArr false [2; 2] [Fin 1; Fin 2; Fin 3; Fin 4]), (PList [PList [PNum (Fin 1); PNum (Fin 2)]; PList [PNum (Fin 3); PNum (Fin 4)]]).
  split; [reflexivity|]. split; [reflexivity|]. split; [reflexivity|]. eexists. split; reflexivity.
Qed.
Theorem column_refuted_axes : exists x d, np_shape x = Some [1; 2; 3] /\ to_column x = Ok d /\ length d = 6.
Proof. exists (PArr false [1; 2; 3] [Fin 1; Fin 2; Fin 3; Fin 4; Fin 5; Fin 6]). eexists. repeat split. Qed.
(** make_scalar takes an array with several entries, returning one of them, and can return a list. *)
Theorem scalar_refuted : exists x y, np_shape x = Some [1; 3] /\ np_data x = [Some (Fin 7); Some (Fin 5); Some (Fin 6)] /\ make_scalar x = Ok y /\ y = PNum (Fin 5).
Proof.
  exists (PArr false [1; 3] [Fin 7; Fin 5; Fin 6]). eexists. split; [reflexivity|]. split; [reflexivity|]. split; [reflexivity|].
  cbn [fold_left]. unfold vmin. cbn [vltb]. unfold Rlt_b. repeat (destruct (Rlt_dec _ _); try lra; cbn [vltb]); reflexivity.
Qed.
Theorem scalar_refuted_list : exists x l, make_scalar x = Ok (PList l).
Proof. now exists (PList [PList [PNum (Fin 1)]]), [PNum (Fin 1)]. Qed.

(** A string of names is one name, but its length is taken as the dimension. *)
Theorem name_refuted : exists (s : string) C m w,
  square_repr 1 C (PNum (Fin 1)) /\ column_repr 1 m (PNum (Fin 0)) /\ scalar_repr w (PNum (Fin 0)) /\
  gaussian_init (Some (NStr s)) (Some (PNum (Fin 1))) (Some (PNum (Fin 0))) (Some (PNum (Fin 0))) None None None = Err AssertionError.
Proof.
  exists "ab", (fun _ _ => 1%R), (fun _ => 0%R), (Fin 0). split; [now apply (sq_num 1 (fun _ _ => 1%R))|]. split; [now apply (co_num 1 (fun _ => 0%R))|]. split; [constructor|]. reflexivity.
Qed.
Theorem name_refuted_dup : exists s, forall cov mean lw prec h g, gaussian_init (Some (NStr s)) cov mean lw prec h g = Err ValueError.
Proof. exists "foo". reflexivity. Qed.
Theorem name_refuted_dim : exists s cov mean lw f C m w, gaussian_init (Some (NStr s)) (Some cov) (Some mean) (Some lw) None None None = Ok f /\
  ga_cov f = Some (C, m, w) /\ nr C = 2 /\ nr m = 2 /\ ga_vars f = [s].
Proof.
  exists "ab", (PList [PList [PNum (Fin 1); PNum (Fin 0)]; PList [PNum (Fin 0); PNum (Fin 1)]]), (PList [PNum (Fin 0); PNum (Fin 0)]), (PNum (Fin 0)).
  do 4 eexists. split; [reflexivity|]. cbn [ga_cov]. split; [reflexivity|]. now repeat split.
Qed.
(** A name of one character may be given as a string. *)
Theorem name_short a : factor_init (NStr (String a EmptyString)) = factor_init (NList [String a EmptyString]).
Proof. reflexivity. Qed.
(** Covariance parameters given next to canonical ones are ignored, whatever they are. *)
Theorem cov_ignored vs cov mean lw cov' mean' lw' prec h g : (prec <> None \/ h <> None \/ g <> None) ->
  gaussian_init vs cov mean lw prec h g = gaussian_init vs cov' mean' lw' prec h g.
Proof. intros N. destruct vs as [vs|]; [|reflexivity]. cbn [gaussian_init]. destruct prec, h, g; cbn [is_none andb]; try reflexivity. now destruct N as [|[|]]. Qed.
Theorem conflict_refuted : exists vs cov mean lw prec h g f, gaussian_init vs (Some cov) (Some mean) (Some lw) (Some prec) (Some h) (Some g) = Ok f /\
  to_square cov = Err ValueError.
Proof. exists (Some (NList ["a"])), (PStr "x"), (PNum (Fin 0)), (PNum (Fin 0)), (PNum (Fin 1)), (PNum (Fin 0)), (PNum (Fin 0)). eexists. split; reflexivity. Qed.

(** The weight property of the sparse class counts the stored assignments only. *)
Definition half_stored : sparse := {| svars := ["a"]; scards := [2]; stbl := [([0], Fin 0)]; sdef := Fin 0 |}.
Lemma half_stored_wf : wf_sparse half_stored.
Proof. solve_wf. Qed.
Theorem weight_default_refuted : exists f w rows, wf_sparse f /\ is_lp (sdef f) /\ stbl f <> [] /\ s_weight f = Ok (Fin w) /\
  s_dense_array f = Ok rows /\ weight_of f = Rsum (map (fun r => numv (snd r)) rows) /\ w <> weight_of f.
Proof.
  destruct (s_array_spec half_stored half_stored_wf I) as (rows & H1 & _ & _ & H2). exists half_stored, 1%R, rows.
  split; [apply half_stored_wf|]. split; [exact I|]. split; [discriminate|]. split.
  { unfold s_weight, logsumexp. cbn [half_stored stbl dvals map snd bind]. destruct (lse_lp [Fin 0]) as (L1 & L2); [intros v [<-|[]]; exact I|]. rewrite (vexp_pot _ L1), L2. cbn. rewrite exp_0. repeat f_equal. lra. }
  split; [exact H1|]. split; [now symmetry|]. rewrite <- H2. injection H1 as <-. cbn. rewrite exp_0. intros H. lra.
Qed.
