(** Which arguments the constructors accept and what they make of them. *)
From Coq Require Import Lia Lra String.
From Verif Require Export ConvModel.
From Verif Require Import BaseFacts GaussFacts.
Local Open Scope nat_scope.
Local Open Scope list_scope.

(** The ways the documentation gives of writing an n by n matrix, a vector of n entries and a
    number. *)
Definition row_of (M : nat -> nat -> R) (n i : nat) : list val := map (fun j => Fin (M i j)) (seq 0 n).
Inductive square_repr (n : nat) (M : nat -> nat -> R) : pyobj -> Prop :=
  | sq_num : n = 1 -> square_repr n M (PNum (Fin (M 0 0)))
  | sq_one : n = 1 -> square_repr n M (PList [PNum (Fin (M 0 0))])
  | sq_rows : 0 < n -> square_repr n M (PList (map (fun i => PList (map PNum (row_of M n i))) (seq 0 n)))
  | sq_array b : square_repr n M (PArr b [n; n] (flat_map (row_of M n) (seq 0 n))).
Definition vec_of (m : nat -> R) (n : nat) : list val := map (fun i => Fin (m i)) (seq 0 n).
Inductive column_repr (n : nat) (m : nat -> R) : pyobj -> Prop :=
  | co_num : n = 1 -> column_repr n m (PNum (Fin (m 0)))
  | co_list : 0 < n -> column_repr n m (PList (map PNum (vec_of m n)))
  | co_rows : 0 < n -> column_repr n m (PList (map (fun v => PList [PNum v]) (vec_of m n)))
  | co_array b : column_repr n m (PArr b [n] (vec_of m n))
  | co_column b : column_repr n m (PArr b [n; 1] (vec_of m n))
  | co_row b : column_repr n m (PArr b [1; n] (vec_of m n)).
Inductive scalar_repr (w : val) : pyobj -> Prop :=
  | sc_num : scalar_repr w (PNum w)
  | sc_list : scalar_repr w (PList [PNum w])
  | sc_array b : scalar_repr w (PArr b [1] [w])
  | sc_matrix b : scalar_repr w (PArr b [1; 1] [w]).
(** Arrays have as many entries as their shape says. *)
Fixpoint sized (x : pyobj) : Prop :=
  match x with
  | PArr _ s d => length d = fold_right Nat.mul 1 s
  | PList l | PTuple l => (fix all (l : list pyobj) := match l with [] => True | y :: r => sized y /\ all r end) l
  | _ => True
  end.

(** The inner loop of [np_shape]. *)
Fixpoint np_shapes (l : list pyobj) : option (option (list nat)) :=
  match l with
  | [] => Some None
  | y :: r => match np_shape y, np_shapes r with
              | Some s, Some None => Some (Some s)
              | Some s, Some (Some t) => if eqb s t then Some (Some s) else None
              | _, _ => None
              end
  end.
Lemma np_shape_list l : np_shape (PList l) = match np_shapes l with Some None => Some [0] | Some (Some s) => Some (length l :: s) | None => None end.
Proof. reflexivity. Qed.
Lemma np_shape_tuple l : np_shape (PTuple l) = match np_shapes l with Some None => Some [0] | Some (Some s) => Some (length l :: s) | None => None end.
Proof. reflexivity. Qed.
Lemma np_shapes_all l s : (forall x, In x l -> np_shape x = Some s) -> l <> [] -> np_shapes l = Some (Some s).
Proof.
  induction l as [|x l IH]; intros H N; [easy|]. cbn [np_shapes]. rewrite (H x) by now left. destruct l as [|y l]; [reflexivity|].
  rewrite IH; [|intros z Hz; apply H; now right|discriminate]. now rewrite BaseFacts.eqb_refl.
Qed.
Lemma np_shapes_inv l s : np_shapes l = Some (Some s) -> forall x, In x l -> np_shape x = Some s.
Proof.
  revert s. induction l as [|y l IH]; intros s H x Hx; [destruct Hx|]. cbn in H. destruct (np_shape y) as [s1|] eqn:E1; [|easy].
  destruct (np_shapes l) as [[t|]|] eqn:E2; [|injection H as <-|easy].
  - destruct (eqb s1 t) eqn:E3; [|easy]. injection H as <-. apply eqb_true in E3. subst t. destruct Hx as [<-|Hx]; [exact E1|now apply IH].
  - destruct l as [|z l]; [destruct Hx as [<-|[]]; exact E1|]. exfalso. cbn in E2. destruct (np_shape z); [|easy]. destruct (np_shapes l) as [[u|]|]; [destruct (eqb l0 u)| |]; easy.
Qed.
Lemma np_shapes_none l : np_shapes l = Some None -> l = [].
Proof.
  destruct l as [|z l]; [reflexivity|]. cbn. destruct (np_shape z) as [s|]; [|easy]. destruct (np_shapes l) as [[u|]|]; [destruct (eqb s u)| |]; easy.
Qed.
Lemma sized_list l : sized (PList l) <-> forall x, In x l -> sized x.
Proof.
  cbn. induction l as [|y l IH]; [now split|]. rewrite IH. split; [intros [A B] x [<-|Hx]; auto|intros H; split; [apply H; now left|intros x Hx; apply H; now right]].
Qed.
Lemma flat_map_len {A B} (f : A -> list B) l c : (forall x, In x l -> length (f x) = c) -> length (flat_map f l) = length l * c.
Proof. induction l as [|x l IH]; intros H; [reflexivity|]. cbn. rewrite app_length, (H x) by now left. rewrite IH; [reflexivity|intros y Hy; apply H; now right]. Qed.

Fixpoint pysize (x : pyobj) : nat := match x with PList l | PTuple l => S (list_sum (map pysize l)) | _ => 1 end.
Lemma pysize_in x l : In x l -> pysize x <= list_sum (map pysize l).
Proof. induction l as [|y l IH]; intros H; [destruct H|]. cbn. destruct H as [<-|H]; [lia|]. specialize (IH H). unfold list_sum in *. lia. Qed.
Lemma np_sized n : forall x s, pysize x <= n -> sized x -> np_shape x = Some s -> length (np_data x) = fold_right Nat.mul 1 s.
Proof.
  induction n as [|n IH]; intros x s Hn Hs H; [destruct x; cbn in Hn; lia|].
  assert (L : forall l, pysize (PList l) <= S n -> sized (PList l) -> np_shape (PList l) = Some s -> length (flat_map np_data l) = fold_right Nat.mul 1 s).
  { clear x Hn Hs H. intros l Hn Hs H. rewrite np_shape_list in H. destruct (np_shapes l) as [[t|]|] eqn:E; [|injection H as <-|easy].
    - injection H as <-. cbn [fold_right]. apply flat_map_len. intros y Hy. apply (IH y t); [cbn in Hn; pose proof (pysize_in y l Hy); lia|now apply (proj1 (sized_list l) Hs)|now apply (np_shapes_inv l)].
    - apply np_shapes_none in E. now subst l. }
  destruct x; cbn in H; try (injection H as <-; reflexivity).
  - apply L; auto.
  - apply L; auto.
  - injection H as <-. cbn in Hs |- *. now rewrite map_length.
Qed.

(** Whatever make_square_matrix accepts, it turns into a square array with the same entries. *)
Lemma check_square_inv a b : check_square a = Ok b -> b = a /\ exists n, fst a = [n; n].
Proof.
  unfold check_square. destruct (fst a) as [|n [|m r]] eqn:E; try easy. unfold raise_if. destruct (Nat.eqb_spec n m) as [->|]; [|easy].
  destruct r as [|k r]; [|easy]. cbn. intros [= <-]. split; [reflexivity|now exists m].
Qed.
Lemma np_array_inv x a : np_array x = Ok a -> np_shape x = Some (fst a) /\ snd a = np_data x.
Proof. unfold np_array. destruct (np_shape x); [intros [= <-]; now split|easy]. Qed.
Theorem to_square_sound x a : sized x -> to_square x = Ok a -> exists n, fst a = [n; n] /\ snd a = np_data x /\ length (snd a) = n * n.
Proof.
  intros Hs H. assert (Q : forall l c, np_array (PList l) = Ok c -> check_square c = Ok a -> sized (PList l) -> exists n, fst a = [n; n] /\ snd a = np_data (PList l) /\ length (snd a) = n * n).
  { intros l c H1 H2 S. apply check_square_inv in H2. destruct H2 as (-> & n & E). apply np_array_inv in H1. destruct H1 as (H1 & H2). exists n. split; [exact E|]. split; [exact H2|].
    rewrite H2, (np_sized (pysize (PList l)) (PList l) (fst c) (le_n _) S H1), E. cbn. lia. }
  destruct x as [v|v|l|l|b s d|s|]; cbn [to_square] in H; try easy.
  - injection H as <-. now exists 1.
  - unfold list_to_square in H. destruct l as [|x [|y l]]; [easy| |].
    + destruct (is_number x) eqn:E.
      * destruct x; try easy. cbn in H. injection H as <-. now exists 1.
      * apply bind_ok in H. destruct H as (n & Hn & H). apply bind_ok in H. destruct H as (_ & _ & H). apply bind_ok in H. destruct H as (z & Hz & H).
        destruct (is_number z); [|easy]. apply bind_ok in H. destruct H as (c & Hc & H). now apply (Q [x] c).
    + apply bind_ok in H. destruct H as (us & _ & H). apply bind_ok in H. destruct H as (c & Hc & H). now apply (Q (x :: y :: l) c).
  - unfold raise_if, py_assert in H. destruct s as [|n [|m [|k s]]]; cbn in H; try easy. destruct (Nat.eqb_spec n m) as [->|]; [|easy]. cbn in H. injection H as <-.
    exists m. cbn in *. rewrite map_length. repeat split. rewrite Hs. lia.
Qed.

(** Every documented form of a matrix is accepted and means that matrix. *)
Lemma row_length M n i : length (row_of M n i) = n.
Proof. unfold row_of. now rewrite map_length, seq_length. Qed.
Lemma flat_rows M n k r : length (flat_map (row_of M n) (seq k r)) = r * n.
Proof. rewrite (flat_map_len _ _ n); [now rewrite seq_length|intros x _; apply row_length]. Qed.
Lemma flat_nth M n r : forall k i j, i < r -> j < n -> nth (i * n + j) (map Some (flat_map (row_of M n) (seq k r))) None = Some (Fin (M (k + i) j)).
Proof.
  induction r as [|r IH]; intros k i j Hi Hj; [lia|]. cbn [seq flat_map]. rewrite map_app. destruct i as [|i].
  - rewrite app_nth1 by (rewrite map_length, row_length; lia). cbn [Nat.mul Nat.add]. rewrite (nth_indep _ None (Some (Fin 0))) by (rewrite map_length, row_length; lia).
    rewrite map_nth. unfold row_of. rewrite (nth_indep _ (Fin 0) (Fin (M k 0))) by (now rewrite map_length, seq_length). rewrite (map_nth (fun j => Fin (M k j)) (seq 0 n) 0 j), seq_nth by exact Hj. now rewrite Nat.add_0_r.
  - rewrite app_nth2 by (rewrite map_length, row_length; lia). rewrite map_length, row_length. replace (S i * n + j - n) with (i * n + j) by lia. rewrite IH by lia. now rewrite <- Nat.add_succ_comm.
Qed.
Definition means (n : nat) (M : nat -> nat -> R) (A : mat) : Prop := nr A = n /\ nc A = n /\ forall i j, i < n -> j < n -> ent A i j = M i j.
Lemma square_of_flat n M : means n M (square_of ([n; n], map Some (flat_map (row_of M n) (seq 0 n)))).
Proof. unfold square_of. repeat split. intros i j Hi Hj. cbn [fst snd ent]. now rewrite flat_nth. Qed.
Lemma nums_data l : flat_map np_data (map PNum l) = map Some l.
Proof. induction l as [|x l IH]; [reflexivity|]. cbn. now rewrite IH. Qed.
Lemma nums_shape l : np_shape (PList (map PNum l)) = Some [length l].
Proof.
  rewrite np_shape_list. destruct l as [|x l]; [reflexivity|]. rewrite (np_shapes_all _ []); [now rewrite map_length|intros y Hy; apply in_map_iff in Hy; destruct Hy as (z & <- & _); reflexivity|discriminate].
Qed.
Lemma list_to_square_many l : 2 <= length l -> (forall x, In x l -> exists r, x = PList r /\ length r = length l) ->
  list_to_square l = (let* a := np_array (PList l) in check_square a).
Proof.
  intros Hl H. destruct l as [|x [|y l]]; try (cbn in Hl; lia). unfold list_to_square.
  rewrite (mapM_ok _ (fun _ => tt)); [reflexivity|]. intros z Hz. destruct (H z Hz) as (r & -> & E). now rewrite E, Nat.eqb_refl.
Qed.
Theorem to_square_repr n M x : square_repr n M x -> exists a, to_square x = Ok a /\ means n M (square_of a).
Proof.
  intros [-> | -> | Hn | b].
  - eexists. split; [reflexivity|]. repeat split. intros i j Hi Hj. replace i with 0 by lia. replace j with 0 by lia. reflexivity.
  - eexists. split; [reflexivity|]. repeat split. intros i j Hi Hj. replace i with 0 by lia. replace j with 0 by lia. reflexivity.
  - exists ([n; n], map Some (flat_map (row_of M n) (seq 0 n))). split; [|apply square_of_flat]. cbn [to_square].
    set (rows := map (fun i => PList (map PNum (row_of M n i))) (seq 0 n)).
    assert (L : length rows = n) by (unfold rows; now rewrite map_length, seq_length).
    assert (A : np_array (PList rows) = Ok ([n; n], map Some (flat_map (row_of M n) (seq 0 n)))).
    { unfold np_array. rewrite np_shape_list, (np_shapes_all rows [n]).
      - rewrite L. f_equal. f_equal. cbn [np_data]. unfold rows. clear. generalize (seq 0 n). intros l. induction l as [|i l IH]; [reflexivity|]. cbn [map flat_map]. rewrite map_app, IH. f_equal. cbn [np_data]. apply nums_data.
      - intros y Hy. unfold rows in Hy. apply in_map_iff in Hy. destruct Hy as (i & <- & _). now rewrite nums_shape, row_length.
      - intros E. rewrite E in L. cbn in L. lia. }
    unfold list_to_square. destruct n as [|[|n]]; [lia| |].
    + reflexivity.
    + change (list_to_square rows = Ok ([S (S n); S (S n)], map Some (flat_map (row_of M (S (S n))) (seq 0 (S (S n)))))).
      rewrite list_to_square_many; [|rewrite L; lia|].
      * rewrite A. cbn [bind]. unfold check_square. cbn [fst]. unfold raise_if. now rewrite Nat.eqb_refl.
      * intros y Hy. unfold rows in Hy. apply in_map_iff in Hy. destruct Hy as (i & <- & _). eexists. split; [reflexivity|]. now rewrite map_length, row_length.
  - exists ([n; n], map Some (flat_map (row_of M n) (seq 0 n))). split; [|apply square_of_flat]. cbn. unfold py_assert. now rewrite Nat.eqb_refl.
Qed.
(** Lists that are not n lists of n entries and arrays that are not square are rejected. *)
Theorem to_square_list_error l : 2 <= length l -> (exists x, In x l /\ forall r, x = PList r -> length r <> length l) -> to_square (PList l) = Err ValueError.
Proof.
  intros Hl (x & Hx & N). cbn [to_square]. unfold list_to_square. destruct l as [|y [|z l]]; try (cbn in Hl; lia).
  remember (y :: z :: l) as w eqn:Ew. clear Ew Hl. assert (G : forall u, In x u -> mapM (fun x => match x with
                               | PList r => raise_if (negb (Nat.eqb (length r) (length w))) ValueError
                               | _ => Err ValueError
                               end) u = Err ValueError).
  { induction u as [|t u IH]; intros Hu; [destruct Hu|]. cbn [mapM]. destruct Hu as [->|Hu].
    - destruct x; try reflexivity. specialize (N _ eq_refl). unfold raise_if. destruct (Nat.eqb_spec (length l0) (length w)); [easy|reflexivity].
    - destruct t; try reflexivity. unfold raise_if at 1. destruct (negb _); [reflexivity|]. cbn [bind]. now rewrite (IH Hu). }
  now rewrite (G w Hx).
Qed.
Theorem to_square_array_error b s d : (forall n, s <> [n; n]) -> to_square (PArr b s d) = Err ValueError \/ to_square (PArr b s d) = Err AssertionError.
Proof.
  intros H. cbn. unfold raise_if, py_assert. destruct s as [|n [|m [|k s]]]; cbn; auto. destruct (Nat.eqb_spec n m) as [->|]; [now contradiction (H m)|now right].
Qed.

(** Columns. *)
Definition means_col (n : nat) (m : nat -> R) (A : mat) : Prop := nr A = n /\ nc A = 1 /\ forall i, i < n -> ent A i 0 = m i.
Lemma vec_length m n : length (vec_of m n) = n.
Proof. unfold vec_of. now rewrite map_length, seq_length. Qed.
Lemma column_of_vec n m : means_col n m (column_of (map Some (vec_of m n))).
Proof.
  unfold column_of. split; [cbn; now rewrite map_length, vec_length|]. split; [reflexivity|]. intros i Hi. cbn [ent].
  rewrite (nth_indep _ None (Some (Fin 0))) by (now rewrite map_length, vec_length). rewrite map_nth. unfold vec_of.
  rewrite (nth_indep _ (Fin 0) (Fin (m 0))) by (now rewrite map_length, seq_length). rewrite (map_nth (fun i => Fin (m i)) (seq 0 n) 0 i), seq_nth by exact Hi. reflexivity.
Qed.
Theorem to_column_repr n m x : column_repr n m x -> exists d, to_column x = Ok d /\ length d = n /\ means_col n m (column_of d).
Proof.
  intros H. assert (G : to_column x = Ok (map Some (vec_of m n))).
  { destruct H as [-> | Hn | Hn | b | b | b].
    - reflexivity.
    - unfold to_column, np_array. rewrite nums_shape. cbn [bind snd np_data]. now rewrite nums_data.
    - unfold to_column, np_array. rewrite np_shape_list, (np_shapes_all _ [1]).
      + cbn [bind snd np_data]. f_equal. generalize (vec_of m n). intros l. induction l as [|v l IH]; [reflexivity|]. cbn. now rewrite IH.
      + intros y Hy. apply in_map_iff in Hy. destruct Hy as (v & <- & _). reflexivity.
      + destruct n; [lia|]. discriminate.
    - reflexivity.
    - cbn. unfold py_assert. now rewrite andb_false_r.
    - reflexivity. }
  exists (map Some (vec_of m n)). split; [exact G|]. split; [now rewrite map_length, vec_length|apply column_of_vec].
Qed.
(** Whatever make_column_vector accepts, the column has the entries of the argument, in order. *)
Theorem to_column_sound x d : to_column x = Ok d -> d = np_data x.
Proof.
  unfold to_column. destruct x; try (intros H; apply bind_ok in H; destruct H as (a & Ha & H); injection H as <-; now apply np_array_inv in Ha).
  intros H. apply bind_ok in H. destruct H as (u & _ & H). now injection H as <-.
Qed.
Theorem to_column_matrix_error b n m d : 1 < n -> 1 < m -> to_column (PArr b [n; m] d) = Err AssertionError.
Proof. intros Hn Hm. cbn. unfold py_assert. apply Nat.ltb_lt in Hn, Hm. unfold Nat.ltb in Hn, Hm. cbn in Hn, Hm. now rewrite Hn, Hm. Qed.

(** Numbers. *)
Theorem make_scalar_repr w x : scalar_repr w x -> exists y, make_scalar x = Ok y /\ number_of y = w.
Proof. intros [| |[]|[]]; eexists; split; reflexivity. Qed.
Lemma vmin_in x y : vmin x y = x \/ vmin x y = y.
Proof. unfold vmin. destruct x, y; auto; destruct (vltb _ _); auto. Qed.
Lemma fold_vmin_in r v : In (fold_left vmin r v) (v :: r).
Proof.
  revert v. induction r as [|x r IH]; intros v; [now left|]. cbn [fold_left]. destruct (IH (vmin v x)) as [E|E]; [|right; now right].
  rewrite <- E. destruct (vmin_in v x) as [-> | ->]; [now left|right; now left].
Qed.
(** What is accepted, and what is refused. *)
Theorem make_scalar_sound x y : make_scalar x = Ok y ->
  (exists v, x = PNum v /\ y = x) \/ x = PList [y] \/ exists b s d, x = PArr b (1 :: s) d /\ In (number_of y) d.
Proof.
  destruct x as [v|v|l|l|b s d|t|]; cbn [make_scalar]; intros H; try discriminate H.
  - injection H as <-. left. now exists v.
  - right. left. destruct l as [|z [|z' l]]; cbn in H; try discriminate H. now injection H as <-.
  - right. right. destruct s as [|n s]; [discriminate H|]. cbn in H. destruct (Nat.eqb_spec n 1) as [->|N]; [|discriminate H]. cbn in H. destruct d as [|v r]; [discriminate H|]. injection H as <-.
    exists b, s, (v :: r). split; [reflexivity|]. destruct b; cbn [number_of]; apply fold_vmin_in.
Qed.
Theorem make_scalar_error :
  (forall l, length l <> 1 -> make_scalar (PList l) = Err ValueError) /\ (forall b n s d, n <> 1 -> make_scalar (PArr b (n :: s) d) = Err ValueError) /\
  (forall l, make_scalar (PTuple l) = Err TypeError) /\ (forall t, make_scalar (PStr t) = Err TypeError) /\ make_scalar PNone = Err TypeError.
Proof.
  split; [|split; [|auto]].
  - intros l H. cbn. destruct (Nat.eqb_spec (length l) 1) as [E|]; [now contradiction H|reflexivity].
  - intros b n s d H. cbn. destruct (Nat.eqb_spec n 1) as [E|]; [now contradiction H|reflexivity].
Qed.

(** Names. *)
Theorem factor_init_list l : NoDup l -> factor_init (NList l) = Ok (l, length l).
Proof. intros H. unfold factor_init. now rewrite (proj2 (nodupb_iff l) H). Qed.
Theorem factor_init_dup l : ~ NoDup l -> factor_init (NList l) = Err ValueError.
Proof. intros H. unfold factor_init. destruct (nodupb l) eqn:E; [|reflexivity]. now apply nodupb_iff in E. Qed.

(** The constructor. *)
Theorem gaussian_init_cov vs n C m w cov mean lw : NoDup vs -> length vs = n -> square_repr n C cov -> column_repr n m mean -> scalar_repr w lw ->
  exists f C' m', gaussian_init (Some (NList vs)) (Some cov) (Some mean) (Some lw) None None None = Ok f /\
    ga_vars f = vs /\ ga_vac f = false /\ ga_can f = None /\ ga_cov f = Some (C', m', w) /\ means n C C' /\ means_col n m m'.
Proof.
  intros Hd <- H1 H2 H3. destruct (to_square_repr _ _ _ H1) as (a & E1 & M1). destruct (to_column_repr _ _ _ H2) as (d & E2 & L2 & M2). destruct (make_scalar_repr _ _ H3) as (y & E3 & N3).
  cbn [gaussian_init]. rewrite (factor_init_list vs Hd). cbn [bind is_none andb]. rewrite E1. cbn [bind]. rewrite E2. cbn [bind].
  destruct M1 as (R1 & M1). rewrite R1, L2, Nat.eqb_refl. cbn [py_assert bind]. rewrite E3. cbn [bind]. rewrite N3. do 3 eexists. repeat (split; [reflexivity|]). split; [now split|exact M2].
Qed.
Theorem gaussian_init_can vs n K h g prec h_vec g_val cov mean lw : NoDup vs -> length vs = n -> square_repr n K prec -> column_repr n h h_vec -> scalar_repr g g_val ->
  exists f K' h', gaussian_init (Some (NList vs)) cov mean lw (Some prec) (Some h_vec) (Some g_val) = Ok f /\
    ga_vars f = vs /\ ga_cov f = None /\ ga_can f = Some (K', h', g) /\ means n K K' /\ means_col n h h' /\
    (ga_vac f = true -> forall i j, i < n -> j < n -> (Rabs (K i j) <= 1 / 100000000)%R) /\
    ((forall i j, i < n -> j < n -> K i j = 0%R) -> 0 < n -> ga_vac f = true).
Proof.
  intros Hd <- H1 H2 H3. destruct (to_square_repr _ _ _ H1) as (a & E1 & M1). destruct (to_column_repr _ _ _ H2) as (d & E2 & L2 & M2). destruct (make_scalar_repr _ _ H3) as (y & E3 & N3).
  cbn [gaussian_init]. rewrite (factor_init_list vs Hd). cbn [bind is_none andb]. rewrite E1. cbn [bind]. rewrite E2. cbn [bind].
  pose proof M1 as (R1 & R2 & R3). rewrite R1, L2, Nat.eqb_refl. cbn [py_assert bind]. rewrite E3. cbn [bind]. rewrite N3. do 3 eexists. repeat (split; [reflexivity|]). split; [exact M1|]. split; [exact M2|].
  cbn [ga_vac]. unfold prec_vacuous. split.
  - intros H i j Hi Hj. apply andb_true_iff in H. destruct H as (H & _). unfold allclose_zero in H. rewrite forallb_forall in H. specialize (H i). rewrite forallb_forall in H.
    specialize (H ltac:(apply in_seq; lia) j ltac:(apply in_seq; lia)). rewrite R3 in H by assumption. unfold Rle_b in H. now destruct (Rle_dec _ _).
  - intros H Hn. apply andb_true_intro. split.
    + unfold allclose_zero. apply forallb_forall. intros i Hi. apply forallb_forall. intros j Hj. apply in_seq in Hi, Hj. rewrite R3, H by lia. rewrite Rabs_R0. unfold Rle_b. destruct (Rle_dec _ _); [reflexivity|lra].
    + unfold is_pos_def. destruct (ClassicalEpsilon.excluded_middle_informative _) as [E|]; [exfalso|reflexivity].
      destruct (E 0%R 0%R) as [?|(_ & ?)]; [|lra|lra]. exists (fun i => if Nat.eqb i 0 then 1%R else 0%R), (fun _ => 0%R). split; [exists 0; split; [lia|left; cbn; lra]|].
      intros i Hi. unfold mvec. split; rewrite rsum_zero; try lra; intros j Hj; rewrite R3, H by lia; lra.
Qed.
(** The constructor fails for missing names, duplicates, incomplete or mismatched parameters. *)
Theorem gaussian_init_missing cov mean lw prec h g : gaussian_init None cov mean lw prec h g = Err ValueError.
Proof. reflexivity. Qed.
Theorem gaussian_init_dup vs cov mean lw prec h g : ~ NoDup vs -> gaussian_init (Some (NList vs)) cov mean lw prec h g = Err ValueError.
Proof. intros H. cbn [gaussian_init]. now rewrite (factor_init_dup vs H). Qed.
Theorem gaussian_init_incomplete vs cov mean lw prec h g : (prec = None /\ h = None /\ g = None /\ (cov = None \/ mean = None \/ lw = None)) \/
    (~ (prec = None /\ h = None /\ g = None) /\ (prec = None \/ h = None \/ g = None)) ->
  gaussian_init (Some (NList vs)) cov mean lw prec h g = Err ValueError.
Proof.
  intros H. cbn [gaussian_init]. unfold factor_init. destruct (nodupb vs); [|reflexivity]. cbn [negb raise_if bind].
  destruct prec, h, g; cbn [is_none andb]; try reflexivity; destruct H as [(A & B & D & H)|(N & H)]; try discriminate; try (now contradict N); try (now destruct H as [|[|]]).
  destruct cov, mean, lw; try reflexivity. now destruct H as [|[|]].
Qed.
Theorem gaussian_init_mismatch vs n k C m cov mean lw : length vs = n -> NoDup vs -> square_repr n C cov -> column_repr k m mean -> k <> n ->
  gaussian_init (Some (NList vs)) (Some cov) (Some mean) (Some lw) None None None = Err AssertionError.
Proof.
  intros <- Hd H1 H2 N. destruct (to_square_repr _ _ _ H1) as (a & E1 & M1). destruct (to_column_repr _ _ _ H2) as (d & E2 & L2 & M2).
  cbn [gaussian_init]. rewrite (factor_init_list vs Hd). cbn [bind is_none andb]. rewrite E1. cbn [bind]. rewrite E2. cbn [bind].
  destruct M1 as (R1 & M1). rewrite R1, L2, Nat.eqb_refl. cbn [py_assert bind]. unfold py_assert. destruct (Nat.eqb_spec k (length vs)); [congruence|reflexivity].
Qed.
Theorem gaussian_init_mismatch_cov vs n C cov mean lw : length vs <> n -> NoDup vs -> square_repr n C cov -> (exists k m, column_repr k m mean) ->
  gaussian_init (Some (NList vs)) (Some cov) (Some mean) (Some lw) None None None = Err AssertionError.
Proof.
  intros N Hd H1 (k & m & H2). destruct (to_square_repr _ _ _ H1) as (a & E1 & M1). destruct (to_column_repr _ _ _ H2) as (d & E2 & L2 & M2).
  cbn [gaussian_init]. rewrite (factor_init_list vs Hd). cbn [bind is_none andb]. rewrite E1. cbn [bind]. rewrite E2. cbn [bind].
  destruct M1 as (R1 & M1). rewrite R1. unfold py_assert. destruct (Nat.eqb_spec n (length vs)); [congruence|reflexivity].
Qed.
