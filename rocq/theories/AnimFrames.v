(** The frames of the messages passed in a graph with the ids the constructor gives. *)
From Coq Require Import Lia DecimalString DecimalNat.
From Verif Require Export AnimGraph.
From Verif Require Import BaseFacts.
Local Open Scope nat_scope.
Local Open Scope list_scope.

(** The graph with the colours [nc] of the clusters and [ec] of the edges. *)
Definition drawing (ids : list text) (sepset : nat -> nat -> option (list text * bool)) (nc : nat -> text) (ec : nat -> nat -> text) : list gline :=
  flat_map (fun i => Cluster (nth i ids []) (nc i) ::
    flat_map (fun j => match sepset i j with
                       | Some (l, q) =>
                           [Sepset (sepset_name (nth i ids []) (nth j ids [])) (join (tx ",") l) q;
                            Edge (nth i ids []) (sepset_name (nth i ids []) (nth j ids [])) (ec i j);
                            Edge (sepset_name (nth i ids []) (nth j ids [])) (nth j ids []) (ec i j)]
                       | None => []
                       end) (seq (S i) (length ids - S i))) (seq 0 (length ids)).
(** The two halves of an edge may have different colours in between. *)
Definition halves (ids : list text) (sepset : nat -> nat -> option (list text * bool)) (nc : nat -> text) (e1 e2 : nat -> nat -> text) : list gline :=
  flat_map (fun i => Cluster (nth i ids []) (nc i) ::
    flat_map (fun j => match sepset i j with
                       | Some (l, q) =>
                           [Sepset (sepset_name (nth i ids []) (nth j ids [])) (join (tx ",") l) q;
                            Edge (nth i ids []) (sepset_name (nth i ids []) (nth j ids [])) (e1 i j);
                            Edge (sepset_name (nth i ids []) (nth j ids [])) (nth j ids []) (e2 i j)]
                       | None => []
                       end) (seq (S i) (length ids - S i))) (seq 0 (length ids)).
Lemma drawing_halves ids sepset nc ec : drawing ids sepset nc ec = halves ids sepset nc ec ec.
Proof. reflexivity. Qed.
Lemma graph_drawing (ids : list text) sepset : graph_lines ids sepset = drawing ids sepset (fun _ => tx "white") (fun _ _ => tx "black").
Proof. reflexivity. Qed.
Lemma flat_map_ext_in {A B} (f g : A -> list B) l : (forall x, In x l -> f x = g x) -> flat_map f l = flat_map g l.
Proof. induction l as [|x l IH]; intros H; [reflexivity|]. cbn. rewrite (H x (or_introl eq_refl)), IH; [reflexivity|]. intros y Hy. apply H. now right. Qed.
Lemma map_flat_map {A B C} (f : B -> C) (g : A -> list B) l : map f (flat_map g l) = flat_map (fun x => map f (g x)) l.
Proof. induction l as [|x l IH]; [reflexivity|]. cbn. now rewrite map_app, IH. Qed.
Lemma halves_ext (ids : list text) sepset nc nc' e1 e1' e2 e2' : (forall i, i < length ids -> nc i = nc' i) -> (forall i j, i < j -> j < length ids -> e1 i j = e1' i j /\ e2 i j = e2' i j) ->
  halves ids sepset nc e1 e2 = halves ids sepset nc' e1' e2'.
Proof.
  intros H1 H2. apply flat_map_ext_in. intros i Hi. apply in_seq in Hi. rewrite H1 by lia. f_equal. apply flat_map_ext_in. intros j Hj. apply in_seq in Hj. destruct (H2 i j) as (-> & ->); [lia|lia|reflexivity].
Qed.
Lemma in_halves (ids : list text) sepset nc e1 e2 g : In g (halves ids sepset nc e1 e2) ->
  (exists i, i < length ids /\ g = Cluster (nth i ids []) (nc i)) \/
  exists i j l q, i < j /\ j < length ids /\ sepset i j = Some (l, q) /\
    (g = Sepset (sepset_name (nth i ids []) (nth j ids [])) (join (tx ",") l) q \/
     g = Edge (nth i ids []) (sepset_name (nth i ids []) (nth j ids [])) (e1 i j) \/ g = Edge (sepset_name (nth i ids []) (nth j ids [])) (nth j ids []) (e2 i j)).
Proof.
  intros H. apply in_flat_map in H. destruct H as (i & Hi & [<-|H]); apply in_seq in Hi.
  - left. exists i. split; [lia|reflexivity].
  - right. apply in_flat_map in H. destruct H as (j & Hj & H). apply in_seq in Hj. destruct (sepset i j) as [(l & q)|] eqn:E; [|destruct H]. exists i, j, l, q. repeat split; [lia|lia|exact E|].
    destruct H as [<-|[<-|[<-|[]]]]; auto.
Qed.
Lemma drawing_cluster (ids : list text) sepset nc ec i : i < length ids -> In (Cluster (nth i ids []) (nc i)) (drawing ids sepset nc ec).
Proof. intros H. apply in_flat_map. exists i. split; [apply in_seq; lia|now left]. Qed.
Lemma halves_edge (ids : list text) sepset nc e1 e2 i j l q : i < j -> j < length ids -> sepset i j = Some (l, q) ->
  In (Edge (nth i ids []) (sepset_name (nth i ids []) (nth j ids [])) (e1 i j)) (halves ids sepset nc e1 e2) /\
  In (Edge (sepset_name (nth i ids []) (nth j ids [])) (nth j ids []) (e2 i j)) (halves ids sepset nc e1 e2).
Proof.
  intros H1 H2 E. assert (G : forall g, In g [Edge (nth i ids []) (sepset_name (nth i ids []) (nth j ids [])) (e1 i j); Edge (sepset_name (nth i ids []) (nth j ids [])) (nth j ids []) (e2 i j)] -> In g (halves ids sepset nc e1 e2)).
  { intros g Hg. apply in_flat_map. exists i. split; [apply in_seq; lia|]. right. apply in_flat_map. exists j. split; [apply in_seq; lia|]. rewrite E. now right. }
  split; apply G; cbn; auto.
Qed.

(** Ids: a letter c, digits, a hash sign and names without hash sign. *)
Definition idlike (a : text) : Prop := exists d t, a = "c"%char :: d ++ "#"%char :: t /\ (forall x, In x d -> 48 <= nat_of_ascii x <= 57) /\ ~ In "#"%char t.
Lemma digit_no d x : (forall x, In x d -> 48 <= nat_of_ascii x <= 57) -> (nat_of_ascii x < 48 \/ 57 < nat_of_ascii x) -> ~ In x d.
Proof. intros H1 H2 I. apply H1 in I. lia. Qed.
Lemma split_char (c : ascii) u v u' v' : ~ In c u -> ~ In c u' -> u ++ c :: v = u' ++ c :: v' -> u = u' /\ v = v'.
Proof.
  revert u'. induction u as [|x u IH]; intros [|y u'] H1 H2 E; cbn in E.
  - injection E as E. now split.
  - injection E as <- E. exfalso. apply H2. now left.
  - injection E as -> E. exfalso. apply H1. now left.
  - injection E as <- E. destruct (IH u') as (-> & ->); auto. + intros I. apply H1. now right. + intros I. apply H2. now right.
Qed.
Lemma split_last (c : ascii) u v u' v' : ~ In c v -> ~ In c v' -> u ++ c :: v = u' ++ c :: v' -> u = u' /\ v = v'.
Proof.
  intros H1 H2 E. apply (f_equal (@rev ascii)) in E. rewrite !rev_app_distr in E. cbn in E. rewrite <- !app_assoc in E. cbn in E.
  apply split_char in E; [|now rewrite <- in_rev|now rewrite <- in_rev]. destruct E as (E1 & E2). split; [rewrite <- (rev_involutive u), E2; apply rev_involutive|rewrite <- (rev_involutive v), E1; apply rev_involutive].
Qed.
Lemma hash_no_digit d : (forall x, In x d -> 48 <= nat_of_ascii x <= 57) -> ~ In "#"%char d.
Proof. intros H. apply digit_no; [exact H|]. left. vm_compute. lia. Qed.
Lemma c_no_digit d : (forall x, In x d -> 48 <= nat_of_ascii x <= 57) -> ~ In "c"%char d.
Proof. intros H. apply digit_no; [exact H|]. right. vm_compute. lia. Qed.
Lemma p_no_digit d : (forall x, In x d -> 48 <= nat_of_ascii x <= 57) -> ~ In "p"%char d.
Proof. intros H. apply digit_no; [exact H|]. right. vm_compute. lia. Qed.

Lemma id_no_suffix a x : idlike a -> idlike x -> no_suffix a x.
Proof.
  intros (d & t & -> & D & T) (d' & t' & -> & D' & T') u E.
  assert (E' : ("c"%char :: d') ++ "#"%char :: t' = (u ++ "c"%char :: d) ++ "#"%char :: t) by (rewrite <- app_assoc; exact E).
  apply split_last in E'; [|exact T'|exact T]. destruct E' as (E1 & ->). change ("c"%char :: d') with ([] ++ "c"%char :: d') in E1. apply split_last in E1; [|now apply c_no_digit|now apply c_no_digit]. destruct E1 as (_ & ->). reflexivity.
Qed.

Lemma sepset_shape a b : idlike a -> idlike b -> exists m M, sepset_name a b = tx "sepset__" ++ m ++ tx "__" ++ M /\ idlike m /\ idlike M /\ ((m = a /\ M = b) \/ (m = b /\ M = a)).
Proof. intros A B. unfold sepset_name. destruct (text_ltb b a); [exists b, a|exists a, b]; auto 10. Qed.
Lemma sepset_neq_id a b x : idlike x -> sepset_name a b <> x.
Proof. intros (d & t & -> & _) E. unfold sepset_name in E. destruct (text_ltb b a); cbn in E; discriminate E. Qed.
Lemma shape_inj m M m' M' : idlike m -> idlike M -> idlike m' -> idlike M' -> tx "sepset__" ++ m ++ tx "__" ++ M = tx "sepset__" ++ m' ++ tx "__" ++ M' -> m = m' /\ M = M'.
Proof.
  intros (d & t & -> & D & T) (e & s & -> & De & S) (d' & t' & -> & D' & T') (e' & s' & -> & De' & S') E. apply app_inv_head in E. cbn [app] in E. injection E as E. rewrite <- !app_assoc in E. cbn [app] in E.
  apply split_char in E; [|now apply hash_no_digit|now apply hash_no_digit]. destruct E as (-> & E).
  assert (E' : (t ++ tx "__c" ++ e) ++ "#"%char :: s = (t' ++ tx "__c" ++ e') ++ "#"%char :: s') by (rewrite <- !app_assoc; exact E).
  apply split_last in E'; [|exact S|exact S']. destruct E' as (E1 & ->).
  assert (E2 : (t ++ tx "__") ++ "c"%char :: e = (t' ++ tx "__") ++ "c"%char :: e') by (rewrite <- !app_assoc; exact E1).
  apply split_last in E2; [|now apply c_no_digit|now apply c_no_digit]. destruct E2 as (E2 & ->). apply app_inv_tail in E2. now subst.
Qed.
Lemma sepset_inj a b a' b' : idlike a -> idlike b -> idlike a' -> idlike b' -> sepset_name a b = sepset_name a' b' -> (a = a' /\ b = b') \/ (a = b' /\ b = a').
Proof.
  intros A B A' B' E. destruct (sepset_shape a b A B) as (m & M & E1 & I1 & I2 & K). destruct (sepset_shape a' b' A' B') as (m' & M' & E2 & I1' & I2' & K'). rewrite E1, E2 in E. apply shape_inj in E; try assumption. destruct E as (-> & ->).
  destruct K as [(-> & ->)|(-> & ->)], K' as [(-> & ->)|(-> & ->)]; auto.
Qed.
Lemma sepset_no_suffix a b a' b' : idlike a -> idlike b -> idlike a' -> idlike b' -> no_suffix (sepset_name a b) (sepset_name a' b').
Proof.
  intros A B A' B' u E. destruct (sepset_shape a b A B) as (m & M & E1 & I1 & I2 & _). destruct (sepset_shape a' b' A' B') as (m' & M' & E2 & I1' & I2' & _). rewrite E1, E2 in *. clear E1 E2.
  destruct I1 as (d & t & -> & D & T), I2 as (e & s & -> & De & S), I1' as (d' & t' & -> & D' & T'), I2' as (e' & s' & -> & De' & S').
  assert (F : (tx "sepset__c" ++ d' ++ "#"%char :: t' ++ tx "__c" ++ e') ++ "#"%char :: s' = (u ++ tx "sepset__c" ++ d ++ "#"%char :: t ++ tx "__c" ++ e) ++ "#"%char :: s).
  { cbn [app] in E |- *. repeat (rewrite <- app_assoc in E; cbn [app] in E). repeat (rewrite <- app_assoc; cbn [app]). exact E. }
  apply split_last in F; [|exact S'|exact S]. destruct F as (F & ->).
  assert (F2 : ((tx "sepset__c" ++ d') ++ "#"%char :: t' ++ tx "__") ++ "c"%char :: e' = ((u ++ tx "sepset__c" ++ d) ++ "#"%char :: t ++ tx "__") ++ "c"%char :: e).
  { cbn [app] in F |- *. repeat (rewrite <- app_assoc in F; cbn [app] in F). repeat (rewrite <- app_assoc; cbn [app]). exact F. }
  apply split_last in F2; [|now apply c_no_digit|now apply c_no_digit]. destruct F2 as (F2 & ->).
  assert (N : ~ In "#"%char (t' ++ tx "__") /\ ~ In "#"%char (t ++ tx "__")).
  { split; intros I; apply in_app_or in I; destruct I as [I|I]; [now apply T'| |now apply T|]; cbn in I; destruct I as [I|[I|[]]]; discriminate I. }
  apply split_last in F2; [|apply N|apply N]. destruct F2 as (F2 & F3). apply app_inv_tail in F3. subst t'.
  assert (F4 : tx "se" ++ "p"%char :: tx "set__c" ++ d' = (u ++ tx "se") ++ "p"%char :: tx "set__c" ++ d) by (rewrite <- !app_assoc; exact F2).
  assert (P : forall x, (forall y, In y x -> 48 <= nat_of_ascii y <= 57) -> ~ In "p"%char (tx "set__c" ++ x)).
  { intros x Hx I. apply in_app_or in I. destruct I as [I|I]; [cbn in I; repeat (destruct I as [I|I]; [discriminate I|]); exact I|now apply (p_no_digit x)]. }
  apply split_last in F4; [|now apply P|now apply P]. destruct F4 as (_ & F4). apply app_inv_head in F4. subst d'. reflexivity.
Qed.

(** The ids of the constructor. *)
Definition name_ok (v : text) : Prop := plain v /\ ~ In "#"%char v.
Lemma uint_digits d x : In x (tx (NilEmpty.string_of_uint d)) -> 48 <= nat_of_ascii x <= 57.
Proof.
  induction d; cbn; intros H; try (destruct H as [<-|H]; [vm_compute; lia|now apply IHd]). destruct H.
Qed.
Lemma decimal_digits n x : In x (decimal n) -> 48 <= nat_of_ascii x <= 57.
Proof.
  unfold decimal, NilZero.string_of_uint. destruct (Nat.to_uint n) eqn:E; try (intros H; now apply (uint_digits (Nat.to_uint n)); rewrite E). intros [<-|[]]. vm_compute. lia.
Qed.
Lemma tx_inj s t : tx s = tx t -> s = t.
Proof. intros H. unfold tx in H. rewrite <- (string_of_list_ascii_of_string s), H. apply string_of_list_ascii_of_string. Qed.
Lemma decimal_inj m n : decimal m = decimal n -> m = n.
Proof.
  intros H. apply tx_inj in H. apply (f_equal NilZero.uint_of_string) in H. rewrite !NilZero.usu in H.
  - injection H as H. rewrite <- (Unsigned.of_to m), H. apply Unsigned.of_to.
  - intros E. pose proof E as F. apply (f_equal Nat.of_uint) in E. rewrite Unsigned.of_to in E. cbn in E. subst n. discriminate F.
  - intros E. pose proof E as F. apply (f_equal Nat.of_uint) in E. rewrite Unsigned.of_to in E. cbn in E. subst m. discriminate F.
Qed.
Definition sepchar (c : ascii) : bool := negb (aeqb c quote_char || is_space c || aeqb c eq_char || aeqb c "-"%char).
Lemma plain_nil : plain [].
Proof. split; [intros c []|reflexivity]. Qed.
Lemma plain_sep u c v : plain u -> plain v -> sepchar c = true -> plain (u ++ c :: v).
Proof.
  intros (U1 & U2) (V1 & V2) C. unfold sepchar in C. apply negb_true_iff in C. apply orb_false_iff in C. destruct C as (C & C4). apply orb_false_iff in C. destruct C as (C & C3). apply orb_false_iff in C. destruct C as (C1 & C2).
  assert (R : forall x y, aeqb x y = false -> x <> y) by (intros x y H ->; rewrite aeqb_refl in H; discriminate H). split.
  - intros x I. apply in_app_or in I. destruct I as [I|[<-|I]]; [now apply U1| |now apply V1]. auto.
  - rewrite dash_word by now apply R. now rewrite U2, V2.
Qed.
Lemma plain_word l v : forallb sepchar l = true -> plain v -> plain (l ++ v).
Proof. induction l as [|c l IH]; intros H V; [exact V|]. cbn in H. apply andb_true_iff in H. destruct H. apply (plain_sep [] c); auto using plain_nil. Qed.
Lemma plain_text l : forallb sepchar l = true -> plain l.
Proof. intros H. rewrite <- (app_nil_r l). apply plain_word; [exact H|apply plain_nil]. Qed.
Lemma digits_sep d : (forall x, In x d -> 48 <= nat_of_ascii x <= 57) -> forallb sepchar d = true.
Proof.
  intros H. apply forallb_forall. intros x I. apply H in I. unfold sepchar, is_space.
  assert (N : forall y, nat_of_ascii y < 48 \/ 57 < nat_of_ascii y -> aeqb x y = false) by (intros y L; destruct (aeqb x y) eqn:E; [|reflexivity]; apply aeqb_iff in E; subst y; lia).
  rewrite (N quote_char) by (left; vm_compute; lia). rewrite (N eq_char) by (right; vm_compute; lia). rewrite (N "-"%char) by (left; vm_compute; lia).
  rewrite (proj2 (Nat.leb_gt (nat_of_ascii x) 13)) by lia. rewrite (proj2 (Nat.leb_gt (nat_of_ascii x) 32)) by lia. now rewrite !andb_false_r.
Qed.
Lemma join_plain l : (forall v, In v l -> plain v) -> plain (join (tx ",") l).
Proof.
  induction l as [|x l IH]; intros H; [apply plain_nil|]. destruct l as [|y l]; [apply H; now left|]. cbn [join]. apply (plain_sep x ","%char); [apply H; now left|apply IH; intros v Hv; apply H; now right|reflexivity].
Qed.
Lemma join_no_hash l : (forall v, In v l -> ~ In "#"%char v) -> ~ In "#"%char (join (tx ",") l).
Proof.
  induction l as [|x l IH]; intros H; [intros []|]. destruct l as [|y l]; [apply H; now left|]. cbn [join]. intros I. apply in_app_or in I. destruct I as [I|I]; [now apply (H x (or_introl eq_refl))|].
  apply in_app_or in I. destruct I as [[I|[]]|I]; [discriminate I|]. revert I. apply IH. intros v Hv. apply H. now right.
Qed.
Lemma id_plain i vars : (forall v, In v vars -> name_ok v) -> plain (cluster_id i vars).
Proof.
  intros H. unfold cluster_id. apply plain_word; [reflexivity|]. apply plain_word; [apply digits_sep, decimal_digits|]. apply plain_word; [reflexivity|]. apply join_plain. intros v Hv. now apply H.
Qed.
Lemma id_idlike i vars : (forall v, In v vars -> name_ok v) -> idlike (cluster_id i vars).
Proof. intros H. exists (decimal i), (join (tx ",") vars). split; [reflexivity|]. split; [apply decimal_digits|]. apply join_no_hash. intros v Hv. now apply H. Qed.
Lemma id_index i j v w : cluster_id i v = cluster_id j w -> i = j.
Proof.
  intros E. unfold cluster_id in E. cbn [app] in E. injection E as E. apply split_char in E; [|apply hash_no_digit, decimal_digits|apply hash_no_digit, decimal_digits]. now apply decimal_inj.
Qed.
Lemma sepset_plain a b : plain a -> plain b -> plain (sepset_name a b).
Proof.
  intros A B. unfold sepset_name. destruct (text_ltb b a).
  - apply plain_word; [reflexivity|]. apply plain_sep; [exact B| |reflexivity]. apply (plain_word (tx "_")); [reflexivity|exact A].
  - apply plain_word; [reflexivity|]. apply plain_sep; [exact A| |reflexivity]. apply (plain_word (tx "_")); [reflexivity|exact B].
Qed.
Lemma ids_from_nth varss : forall k i, i < length varss -> nth i (ids_from k varss) [] = cluster_id (k + i) (nth i varss []).
Proof.
  induction varss as [|v l IH]; intros k i H; [cbn in H; lia|]. destruct i as [|i]; cbn [ids_from nth]; [now rewrite Nat.add_0_r|]. rewrite IH by (cbn in H; lia). now rewrite Nat.add_succ_r.
Qed.
Lemma ids_from_length varss : forall k, length (ids_from k varss) = length varss.
Proof. induction varss as [|v l IH]; intros k; [reflexivity|]. cbn. now rewrite IH. Qed.

Lemma ltb_asym a b : text_ltb a b = true -> text_ltb b a = false.
Proof.
  revert b. induction a as [|x a IH]; intros [|y b] H; cbn in *; try reflexivity; try discriminate H. destruct (aeqb x y) eqn:E.
  - apply aeqb_iff in E. subst y. rewrite aeqb_refl. now apply IH.
  - destruct (aeqb y x) eqn:E'; [apply aeqb_iff in E'; subst y; rewrite aeqb_refl in E; discriminate E|]. apply Nat.ltb_lt in H. apply Nat.ltb_ge. lia.
Qed.
Lemma ltb_total a b : text_ltb a b = false -> text_ltb b a = false -> a = b.
Proof.
  revert b. induction a as [|x a IH]; intros [|y b] H H'; cbn in *; try reflexivity; try discriminate. destruct (aeqb x y) eqn:E.
  - apply aeqb_iff in E. subst y. rewrite aeqb_refl in H'. f_equal. now apply IH.
  - destruct (aeqb y x) eqn:E'; [apply aeqb_iff in E'; subst y; rewrite aeqb_refl in E; discriminate E|]. apply Nat.ltb_ge in H, H'. assert (X : nat_of_ascii x = nat_of_ascii y) by lia.
    apply (f_equal ascii_of_nat) in X. rewrite !ascii_nat_embedding in X. subst y. rewrite aeqb_refl in E. discriminate E.
Qed.
Lemma name_sym a b : sepset_name a b = sepset_name b a.
Proof.
  unfold sepset_name. destruct (text_ltb b a) eqn:E1, (text_ltb a b) eqn:E2; try reflexivity.
  - rewrite (ltb_asym _ _ E1) in E2. discriminate E2.
  - now rewrite (ltb_total a b E2 E1).
Qed.

Section Frames.
Variables (varss : list (list text)) (sepset : nat -> nat -> option (list text * bool)) (nl : bool).
Hypothesis names : forall v x, In v varss -> In x v -> name_ok x.
Hypothesis labels : forall i j l q x, sepset i j = Some (l, q) -> In x l -> plain x.
Let n := length varss.
Let ids : list text := cluster_ids varss.
Let id (i : nat) : text := nth i ids [].
Lemma ids_length : length ids = n.
Proof. apply ids_from_length. Qed.
Lemma id_is i : i < n -> id i = cluster_id i (nth i varss []).
Proof. intros H. now apply (ids_from_nth varss 0 i). Qed.
Lemma vars_ok i x : i < n -> In x (nth i varss []) -> name_ok x.
Proof. intros H I. apply (names (nth i varss [])); [now apply nth_In|exact I]. Qed.
Lemma id_ok i : i < n -> plain (id i) /\ idlike (id i).
Proof. intros H. rewrite (id_is i H). split; [apply id_plain|apply id_idlike]; intros v Hv; now apply (vars_ok i). Qed.
Lemma id_inj i j : i < n -> j < n -> id i = id j -> i = j.
Proof. intros Hi Hj E. rewrite (id_is i Hi), (id_is j Hj) in E. now apply id_index in E. Qed.

Lemma halves_good nc e1 e2 : (forall i, i < n -> plain (nc i)) -> (forall i j, i < j -> j < n -> plain (e1 i j) /\ plain (e2 i j)) -> forall g, In g (halves ids sepset nc e1 e2) -> good g.
Proof.
  intros N E g H. apply in_halves in H. rewrite ids_length in H. destruct H as [(i & Hi & ->)|(i & j & l & q & Hij & Hj & Es & H)].
  - split; [now apply id_ok|now apply N].
  - assert (Hi : i < n) by lia. destruct (id_ok i Hi) as (P & _), (id_ok j Hj) as (Q & _). destruct H as [->|[->| ->]]; cbn [good].
    + split; [now apply sepset_plain|]. apply join_plain. intros v Hv. now apply (labels i j l q).
    + split; [exact P|]. split; [now apply sepset_plain|now apply (E i j)].
    + split; [now apply sepset_plain|]. split; [exact Q|now apply (E i j)].
Qed.
Definition set1 (nc : nat -> text) (k : nat) (c : text) : nat -> text := fun i => if Nat.eqb i k then c else nc i.
Definition set2 (ec : nat -> nat -> text) (k l : nat) (c : text) : nat -> nat -> text := fun i j => if (Nat.eqb i k && Nat.eqb j l) || (Nat.eqb i l && Nat.eqb j k) then c else ec i j.
Definition colours (nc : nat -> text) (ec : nat -> nat -> text) : Prop := (forall i, i < n -> plain (nc i)) /\ (forall i j, i < j -> j < n -> plain (ec i j)).
Lemma colours1 nc ec k c : colours nc ec -> plain c -> colours (set1 nc k c) ec.
Proof. intros (H1 & H2) C. split; [|exact H2]. intros i Hi. unfold set1. destruct (Nat.eqb i k); [exact C|now apply H1]. Qed.
Lemma colours2 nc ec k l c : colours nc ec -> plain c -> colours nc (set2 ec k l c).
Proof. intros (H1 & H2) C. split; [exact H1|]. intros i j Hi Hj. unfold set2. destruct (_ || _); [exact C|now apply H2]. Qed.
Lemma teqb_refl a : teqb a a = true.
Proof. now apply teqb_iff. Qed.
Lemma teqb_neq a b : a <> b -> teqb a b = false.
Proof. intros H. destruct (teqb a b) eqn:E; [|reflexivity]. apply teqb_iff in E. now contradiction H. Qed.

Lemma paint_node nc ec k c : k < n -> colours nc ec -> change_node (map (render nl) (drawing ids sepset nc ec)) (id k) c = Ok (map (render nl) (drawing ids sepset (set1 nc k c) ec)).
Proof.
  intros Hk (C1 & C2). rewrite change_node_ok.
  - f_equal. f_equal. unfold drawing. rewrite map_flat_map. apply flat_map_ext_in. intros i Hi. apply in_seq in Hi. rewrite ids_length in Hi. cbn [map recolor_node]. f_equal.
    + unfold set1. destruct (Nat.eqb_spec i k) as [->|N]; [now rewrite teqb_refl|]. rewrite teqb_neq; [reflexivity|]. intros E. apply N. apply id_inj; [lia|exact Hk|exact E].
    + rewrite map_flat_map. apply flat_map_ext_in. intros j _. now destruct (sepset i j) as [(l & q)|].
  - rewrite drawing_halves. apply halves_good; [exact C1|]. intros i j Hi Hj. split; now apply C2.
  - now apply id_ok.
  - exists (nc k). apply drawing_cluster. rewrite ids_length. exact Hk.
  - intros m c0 H. rewrite drawing_halves in H. apply in_halves in H. rewrite ids_length in H. destruct H as [(i & Hi & E)|(i & j & l & q & _ & _ & _ & [E|[E|E]])]; [|discriminate E..]. injection E as -> ->. apply id_no_suffix; now apply id_ok.
Qed.

Lemma same_pair i j k l : i < n -> j < n -> k < n -> l < n -> sepset_name (id i) (id j) = sepset_name (id k) (id l) -> (i = k /\ j = l) \/ (i = l /\ j = k).
Proof.
  intros Hi Hj Hk Hl E. apply sepset_inj in E; [|now apply id_ok..]. destruct E as [(E1 & E2)|(E1 & E2)]; apply id_inj in E1, E2; auto.
Qed.

Definition set_half (e : nat -> nat -> text) (k l : nat) (c : text) : nat -> nat -> text := fun i j => if Nat.eqb i k && Nat.eqb j l then c else e i j.
Lemma recolor_half i j k l c e : i < j -> j < n -> k < n -> l < n -> k <> l ->
  recolor_edge (id k) (sepset_name (id k) (id l)) c (Edge (id i) (sepset_name (id i) (id j)) (e i j)) = Edge (id i) (sepset_name (id i) (id j)) (set_half e k l c i j) /\
  recolor_edge (id k) (sepset_name (id k) (id l)) c (Edge (sepset_name (id i) (id j)) (id j) (e i j)) = Edge (sepset_name (id i) (id j)) (id j) (set_half e l k c i j).
Proof.
  intros Hij Hj Hk Hl Hkl. assert (Hi : i < n) by lia. cbn [recolor_edge]. unfold set_half.
  rewrite (teqb_neq (id i) (sepset_name (id k) (id l))) by (intros E; symmetry in E; revert E; apply sepset_neq_id; now apply id_ok).
  rewrite (teqb_neq (id j) (sepset_name (id k) (id l))) by (intros E; symmetry in E; revert E; apply sepset_neq_id; now apply id_ok).
  rewrite andb_false_r. cbn [andb]. rewrite orb_false_r. cbn [orb]. split.
  - destruct (Nat.eqb_spec i k) as [->|N]; cbn [andb].
    + rewrite teqb_refl. cbn [andb]. destruct (Nat.eqb_spec j l) as [->|N]; [now rewrite teqb_refl|]. rewrite teqb_neq; [reflexivity|]. intros E. apply same_pair in E; try assumption. lia.
    + rewrite (teqb_neq (id i)); [reflexivity|]. intros E. apply id_inj in E; auto.
  - destruct (Nat.eqb_spec j k) as [->|N]; cbn [andb].
    + rewrite teqb_refl, !andb_true_r. destruct (Nat.eqb_spec i l) as [->|N]; [|rewrite teqb_neq; [reflexivity|]; intros E; apply same_pair in E; try assumption; lia].
      rewrite name_sym, teqb_refl. reflexivity.
    + rewrite !andb_false_r. rewrite (teqb_neq (id j)); [now rewrite andb_false_r|]. intros E. apply id_inj in E; auto.
Qed.
Definition edge_between (k l : nat) : Prop := exists v q, (k < l /\ sepset k l = Some (v, q)) \/ (l < k /\ sepset l k = Some (v, q)).
Definition colours' (nc : nat -> text) (e1 e2 : nat -> nat -> text) : Prop := (forall i, i < n -> plain (nc i)) /\ (forall i j, i < j -> j < n -> plain (e1 i j) /\ plain (e2 i j)).
Lemma paint_half nc e1 e2 k l c : k < n -> l < n -> edge_between k l -> colours' nc e1 e2 ->
  change_edge (map (render nl) (halves ids sepset nc e1 e2)) (id k) (sepset_name (id k) (id l)) c = Ok (map (render nl) (halves ids sepset nc (set_half e1 k l c) (set_half e2 l k c))).
Proof.
  intros Hk Hl Hkl (C1 & C2). assert (N : k <> l) by (destruct Hkl as (v & q & [(L & _)|(L & _)]); lia). rewrite change_edge_ok.
  - f_equal. f_equal. unfold halves. rewrite map_flat_map. apply flat_map_ext_in. intros i Hi. apply in_seq in Hi. rewrite ids_length in Hi. cbn [map]. f_equal.
    rewrite map_flat_map. apply flat_map_ext_in. intros j Hj. apply in_seq in Hj. rewrite ids_length in Hj. destruct (sepset i j) as [(v & q)|]; [|reflexivity]. cbn [map].
    f_equal. f_equal; [|f_equal]; apply recolor_half; lia.
  - now apply halves_good.
  - now apply id_ok.
  - apply sepset_plain; now apply id_ok.
  - intros E. symmetry in E. revert E. apply sepset_neq_id. now apply id_ok.
  - destruct Hkl as (v & q & [(L & E)|(L & E)]).
    + exists (e1 k l). left. apply (halves_edge ids sepset nc e1 e2 k l v q L); [now rewrite ids_length|exact E].
    + exists (e2 l k). right. rewrite name_sym. apply (halves_edge ids sepset nc e1 e2 l k v q L); [now rewrite ids_length|exact E].
  - intros x y c0 H. apply in_halves in H. rewrite ids_length in H. destruct H as [(i & Hi & E)|(i & j & v & q & Hij & Hj & _ & [E|[E|E]])]; try discriminate E; injection E as -> -> ->.
    + split; [intros _; apply id_no_suffix; apply id_ok; lia|]. intros E. exfalso. revert E. apply sepset_neq_id. apply id_ok. lia.
    + split; [intros E; exfalso; symmetry in E; revert E; apply sepset_neq_id; apply id_ok; lia|]. intros _. apply sepset_no_suffix; apply id_ok; lia.
Qed.
Lemma edge_sym k l : edge_between k l -> edge_between l k.
Proof. intros (v & q & [H|H]); exists v, q; auto. Qed.
Lemma plain_set e k l c : plain c -> forall i j, plain (e i j) -> plain (set_half e k l c i j).
Proof. intros C i j H. unfold set_half. now destruct (_ && _). Qed.
Lemma paint_edge nc ec k l c : k < n -> l < n -> edge_between k l -> colours nc ec -> plain c ->
  change_cluster_edge (map (render nl) (drawing ids sepset nc ec)) (id k) (id l) c = Ok (map (render nl) (drawing ids sepset nc (set2 ec k l c))).
Proof.
  intros Hk Hl Hkl (C1 & C2) C. unfold change_cluster_edge. rewrite !drawing_halves. rewrite (paint_half nc ec ec k l c Hk Hl Hkl); [|split; [exact C1|intros; split; now apply C2]]. cbn [bind]. rewrite (name_sym (id k) (id l)).
  rewrite (paint_half nc _ _ l k c Hl Hk (edge_sym _ _ Hkl)); [|split; [exact C1|intros i j Hi Hj; split; apply plain_set; auto]]. f_equal. f_equal.
  apply halves_ext; [reflexivity|]. intros i j _ _. unfold set_half, set2. destruct (Nat.eqb i k && Nat.eqb j l), (Nat.eqb i l && Nat.eqb j k); auto.
Qed.

(** An edge that is not in the graph is only reported missing if one of the clusters has no edge. *)
Definition has_edge (k : nat) : Prop := exists m, m < n /\ edge_between k m.
Lemma id_in_name i j : contains (id i) (sepset_name (id i) (id j)) = true /\ contains (id j) (sepset_name (id i) (id j)) = true.
Proof.
  unfold sepset_name. split; apply contains_iff; destruct (text_ltb (id j) (id i)).
  - exists (tx "sepset__" ++ id j ++ tx "__"), []. now rewrite app_nil_r, <- !app_assoc.
  - now exists (tx "sepset__"), (tx "__" ++ id j).
  - now exists (tx "sepset__"), (tx "__" ++ id i).
  - exists (tx "sepset__" ++ id i ++ tx "__"), []. now rewrite app_nil_r, <- !app_assoc.
Qed.
Lemma name_not_in i j k : contains (sepset_name (id i) (id j)) (id k) = true -> k < n -> i < n -> j < n -> False.
Proof.
  intros C Hk Hi Hj. destruct (id_ok k Hk) as (_ & (d & t & E & D & T)). rewrite E in C. apply contains_iff in C. destruct C as (u & v & C).
  destruct (sepset_shape (id i) (id j)) as (m & M & Es & (d1 & t1 & -> & D1 & T1) & (d2 & t2 & -> & D2 & T2) & _); [now apply id_ok..|]. rewrite Es in C.
  assert (F : (u ++ tx "sepset__c" ++ d1) ++ "#"%char :: t1 ++ tx "__c" ++ d2 ++ "#"%char :: t2 ++ v = ("c"%char :: d) ++ "#"%char :: t).
  { transitivity (u ++ (tx "sepset__" ++ ("c"%char :: d1 ++ "#"%char :: t1) ++ tx "__" ++ "c"%char :: d2 ++ "#"%char :: t2) ++ v); [|symmetry; exact C]. cbn [app]. repeat (rewrite <- app_assoc; cbn [app]). reflexivity. }
  assert (G : (u ++ tx "sepset__c" ++ d1 ++ "#"%char :: t1 ++ tx "__c" ++ d2) ++ "#"%char :: t2 ++ v = ("c"%char :: d) ++ "#"%char :: t).
  { etransitivity; [|exact F]. cbn [app]. repeat (rewrite <- app_assoc; cbn [app]). reflexivity. }
  assert (X : forall u1 v1 u2 v2, ~ In "#"%char u2 -> ~ In "#"%char v2 -> u1 ++ "#"%char :: v1 = u2 ++ "#"%char :: v2 -> u1 = u2).
  { clear. induction u1 as [|x u1 IH]; intros v1 [|y u2] v2 H1 H2 E; cbn in E; [reflexivity| | |].
    - injection E as <- E. exfalso. apply H1. now left.
    - injection E as -> E. exfalso. apply H2. rewrite <- E. apply in_or_app. right. now left.
    - injection E as -> E. f_equal. apply (IH v1 u2 v2); [|exact H2|exact E]. intros I. apply H1. now right. }
  assert (Y : ~ In "#"%char ("c"%char :: d)) by (intros [I|I]; [discriminate I|revert I; now apply hash_no_digit]).
  apply X in F; [|exact Y|exact T]. apply X in G; [|exact Y|exact T]. rewrite <- F in G. apply (f_equal (@length ascii)) in G. repeat (rewrite app_length in G; cbn [length tx list_ascii_of_string] in G). lia.
Qed.
Lemma half_missing nc ec k l c : k < n -> l < n -> k <> l -> ~ edge_between k l -> has_edge k -> colours nc ec ->
  change_edge (map (render nl) (drawing ids sepset nc ec)) (id k) (sepset_name (id k) (id l)) c = Ok (map (render nl) (drawing ids sepset nc ec)).
Proof.
  intros Hk Hl N NE (m & Hm & HE) (C1 & C2). rewrite drawing_halves. unfold change_edge.
  assert (L : forall g, In g (halves ids sepset nc ec ec) -> fst (edge_line_color (id k) (sepset_name (id k) (id l)) c (render nl g)) = render nl g).
  { intros g Hg. destruct (edge_line nl (id k) (sepset_name (id k) (id l)) c g) as (F & _).
    - apply (halves_good nc ec ec); [exact C1|intros i j Hi Hj; split; now apply C2|exact Hg].
    - now apply id_ok.
    - apply sepset_plain; now apply id_ok.
    - intros E. symmetry in E. revert E. apply sepset_neq_id. now apply id_ok.
    - intros x y c0 ->. apply in_halves in Hg. rewrite ids_length in Hg. destruct Hg as [(i & Hi & E)|(i & j & v & q & Hij & Hj & _ & [E|[E|E]])]; try discriminate E; injection E as -> -> ->.
      + split; [intros _; apply id_no_suffix; apply id_ok; lia|]. intros E. exfalso. revert E. apply sepset_neq_id. apply id_ok. lia.
      + split; [intros E; exfalso; symmetry in E; revert E; apply sepset_neq_id; apply id_ok; lia|]. intros _. apply sepset_no_suffix; apply id_ok; lia.
    - rewrite F. f_equal. apply in_halves in Hg. rewrite ids_length in Hg. destruct Hg as [(i & Hi & ->)|(i & j & v & q & Hij & Hj & Es & [->|[-> | ->]])]; try reflexivity.
      + etransitivity; [exact (proj1 (recolor_half i j k l c ec Hij Hj Hk Hl N))|]. unfold set_half. destruct (Nat.eqb_spec i k) as [->|]; [|reflexivity]. destruct (Nat.eqb_spec j l) as [->|]; [|reflexivity].
        exfalso. apply NE. exists v, q. left. auto.
      + etransitivity; [exact (proj2 (recolor_half i j k l c ec Hij Hj Hk Hl N))|]. unfold set_half. destruct (Nat.eqb_spec i l) as [->|]; [|reflexivity]. destruct (Nat.eqb_spec j k) as [->|]; [|reflexivity].
        exfalso. apply NE. exists v, q. right. auto. }
  assert (K : exists g, In g (halves ids sepset nc ec ec) /\ snd (edge_line_color (id k) (sepset_name (id k) (id l)) c (render nl g)) = true).
  { assert (K0 : forall x y e, (exists u v, render nl (Edge x y e) = u ++ quote_char :: id k ++ quote_char :: v) -> snd (edge_line_color (id k) (sepset_name (id k) (id l)) c (render nl (Edge x y e))) = true).
    { intros x y e (u & v & E). unfold edge_line_color. rewrite dash_edge. unfold both_in, sub_and_super. rewrite (proj1 (id_in_name k l)).
      assert (Ca : contains (id k) (render nl (Edge x y e)) = true) by (apply contains_iff; exists (u ++ [quote_char]), (quote_char :: v); rewrite E, <- app_assoc; reflexivity).
      rewrite Ca. cbn [negb]. rewrite E, remove_keeps; [reflexivity| |].
      - apply plain_quote. apply sepset_plain; now apply id_ok.
      - destruct (contains (sepset_name (id k) (id l)) (id k)) eqn:B; [|reflexivity]. exfalso. now apply (name_not_in k l k B). }
    destruct HE as (v & q & [(Lt & E)|(Lt & E)]).
    - destruct (halves_edge ids sepset nc ec ec k m v q Lt) as (I & _); [now rewrite ids_length|exact E|]. eexists. split; [exact I|]. apply K0. apply edge_first.
    - destruct (halves_edge ids sepset nc ec ec m k v q Lt) as (_ & I); [now rewrite ids_length|exact E|]. eexists. split; [exact I|]. apply K0. apply edge_second. }
  destruct K as (g & Hg & Eg). rewrite map_map.
  assert (E : existsb snd (map (fun g => edge_line_color (id k) (sepset_name (id k) (id l)) c (render nl g)) (halves ids sepset nc ec ec)) = true).
  { apply existsb_exists. eexists. split; [apply in_map; exact Hg|exact Eg]. }
  rewrite E. cbn [negb raise_if bind]. f_equal. rewrite map_map. apply map_ext_in. exact L.
Qed.
Theorem missing_edge nc ec k l c : k < n -> l < n -> k <> l -> ~ edge_between k l -> has_edge k -> has_edge l -> colours nc ec ->
  change_cluster_edge (map (render nl) (drawing ids sepset nc ec)) (id k) (id l) c = Ok (map (render nl) (drawing ids sepset nc ec)).
Proof.
  intros Hk Hl N NE Ek El C. unfold change_cluster_edge. rewrite (half_missing nc ec k l c Hk Hl N NE Ek C). cbn [bind]. rewrite name_sym. apply half_missing; auto. intros H. apply NE. now apply edge_sym.
Qed.

(** One message: the sender turns red, then the edge, then the receiver; then they turn back in the
    same order. *)
Definition white : nat -> text := fun _ => tx "white".
Definition black : nat -> nat -> text := fun _ _ => tx "black".
Definition picture (nc : nat -> text) (ec : nat -> nat -> text) : list text := map (render nl) (drawing ids sepset nc ec).
Definition message_frames (k l : nat) : list (list text) :=
  let red1 := fun i => if Nat.eqb i k then tx "red" else tx "white" in
  let red2 := fun i => if Nat.eqb i l then tx "red" else tx "white" in
  let both := fun i => if Nat.eqb i k || Nat.eqb i l then tx "red" else tx "white" in
  let line := fun i j => if (Nat.eqb i k && Nat.eqb j l) || (Nat.eqb i l && Nat.eqb j k) then tx "red" else tx "black" in
  [picture red1 black; picture red1 line; picture both line; picture red2 line; picture red2 black; picture white black].
Lemma picture_ext nc nc' ec ec' : (forall i, i < n -> nc i = nc' i) -> (forall i j, ec i j = ec' i j) -> picture nc ec = picture nc' ec'.
Proof. intros H1 H2. unfold picture. f_equal. rewrite !drawing_halves. apply halves_ext; [intros i; rewrite ids_length; apply H1|intros i j _ _; now rewrite H2]. Qed.
Lemma red_plain : plain (tx "red"). Proof. now apply plain_text. Qed.
Lemma white_plain : plain (tx "white"). Proof. now apply plain_text. Qed.
Lemma black_plain : plain (tx "black"). Proof. now apply plain_text. Qed.
Theorem animate_ok k l frames : k < n -> l < n -> edge_between k l ->
  animate (picture white black) frames (id k) (id l) = Ok (picture white black, frames ++ message_frames k l).
Proof.
  intros Hk Hl Hkl. assert (N : k <> l) by (destruct Hkl as (v & q & [(L & _)|(L & _)]); lia). unfold animate, message_frames. cbv zeta.
  assert (C0 : colours white black) by (split; intros; [apply white_plain|apply black_plain]).
  pose proof (colours1 _ _ k _ C0 red_plain) as C1. pose proof (colours2 _ _ k l _ C1 red_plain) as C2. pose proof (colours1 _ _ l _ C2 red_plain) as C3.
  pose proof (colours1 _ _ k _ C3 white_plain) as C4. pose proof (colours2 _ _ k l _ C4 black_plain) as C5.
  unfold picture at 1. rewrite (paint_node _ _ k _ Hk C0). cbn [bind]. rewrite (paint_edge _ _ k l _ Hk Hl Hkl C1 red_plain). cbn [bind].
  rewrite (paint_node _ _ l _ Hl C2). cbn [bind]. rewrite (paint_node _ _ k _ Hk C3). cbn [bind]. rewrite (paint_edge _ _ k l _ Hk Hl Hkl C4 black_plain). cbn [bind]. rewrite (paint_node _ _ l _ Hl C5). cbn [bind].
  fold (picture (set1 white k (tx "red")) black).
  repeat match goal with |- context [map (render nl) (drawing ids sepset ?a ?b)] => fold (picture a b) end.
  assert (E1 : picture (set1 (set1 (set1 (set1 white k (tx "red")) l (tx "red")) k (tx "white")) l (tx "white")) (set2 (set2 black k l (tx "red")) k l (tx "black")) = picture white black).
  { apply picture_ext; [intros i _|intros i j]; unfold set1, set2, white, black. - now destruct (Nat.eqb i l), (Nat.eqb i k). - now destruct (_ || _). }
  rewrite E1. apply (f_equal (fun z => Ok (picture white black, frames ++ z))). repeat apply (f_equal2 cons); try reflexivity; apply picture_ext; intros; unfold set1, set2, white, black; try reflexivity.
  - destruct (Nat.eqb i l), (Nat.eqb i k); reflexivity.
  - destruct (Nat.eqb_spec i k) as [->|]; [|reflexivity]. destruct (Nat.eqb_spec k l); [now contradiction N|reflexivity].
  - destruct (Nat.eqb_spec i k) as [->|]; [|reflexivity]. destruct (Nat.eqb_spec k l); [now contradiction N|reflexivity].
  - now destruct (_ || _).
Qed.
Theorem animate_all_ok (msgs : list (nat * nat)) : (forall m, In m msgs -> fst m < n /\ snd m < n /\ edge_between (fst m) (snd m)) -> forall frames,
  animate_all (picture white black) frames (map (fun m => (id (fst m), id (snd m))) msgs) = Ok (picture white black, frames ++ flat_map (fun m => message_frames (fst m) (snd m)) msgs).
Proof.
  unfold animate_all. induction msgs as [|(k & l) msgs IH]; intros H frames; cbn [map foldM flat_map fst snd].
  - now rewrite app_nil_r.
  - destruct (H (k, l) (or_introl eq_refl)) as (Hk & Hl & He). rewrite (animate_ok k l frames Hk Hl He). cbn [bind]. rewrite IH; [now rewrite app_assoc|]. intros m Hm. apply H. now right.
Qed.
End Frames.

(** The names of the nodes, for variables with any names. *)
Lemma id_nth varss i : i < length varss -> nth i (cluster_ids varss) [] = cluster_id i (nth i varss []).
Proof. intros H. now apply (ids_from_nth varss 0 i). Qed.
Lemma ids_distinct varss i j : i < length varss -> j < length varss -> nth i (cluster_ids varss) [] = nth j (cluster_ids varss) [] -> i = j.
Proof. intros Hi Hj E. rewrite !id_nth in E by assumption. now apply id_index in E. Qed.
Lemma id_prefix i v w s t : cluster_id i v ++ s = w ++ t -> forall j u, w = cluster_id j u -> i = j.
Proof.
  intros E j u ->. unfold cluster_id in E. cbn [app] in E. injection E as E. rewrite <- !app_assoc in E. cbn [app] in E. apply split_char in E; [|apply hash_no_digit, decimal_digits..]. now apply decimal_inj.
Qed.
Theorem sepset_names varss i j k l : i < length varss -> j < length varss -> k < length varss -> l < length varss ->
  let id m := nth m (cluster_ids varss) [] in
  sepset_name (id i) (id j) = sepset_name (id k) (id l) -> (i = k /\ j = l) \/ (i = l /\ j = k).
Proof.
  intros Hi Hj Hk Hl id E.
  assert (S : forall a b, exists m M, sepset_name a b = tx "sepset__" ++ m ++ tx "__" ++ M /\ ((m = a /\ M = b) \/ (m = b /\ M = a))).
  { intros a b. unfold sepset_name. destruct (text_ltb b a); [exists b, a|exists a, b]; auto. }
  assert (G : forall p q r s, p < length varss -> q < length varss -> r < length varss -> s < length varss -> tx "sepset__" ++ id p ++ tx "__" ++ id q = tx "sepset__" ++ id r ++ tx "__" ++ id s -> p = r /\ q = s).
  { intros p q r s Hp Hq Hr Hs F. apply app_inv_head in F. assert (p = r). { unfold id in F. rewrite (id_nth varss p Hp) in F. now apply (id_prefix p _ _ _ _ F r (nth r varss [])), id_nth. }
    subst r. split; [reflexivity|]. apply app_inv_head in F. apply app_inv_head in F. now apply ids_distinct in F. }
  destruct (S (id i) (id j)) as (m & M & E1 & K1), (S (id k) (id l)) as (m' & M' & E2 & K2). rewrite E1, E2 in E.
  destruct K1 as [(-> & ->)|(-> & ->)], K2 as [(-> & ->)|(-> & ->)]; apply G in E; auto; destruct E; auto.
Qed.
Lemma sepset_not_id varss i j k : k < length varss -> sepset_name (nth i (cluster_ids varss) []) (nth j (cluster_ids varss) []) <> nth k (cluster_ids varss) [].
Proof. intros Hk E. rewrite (id_nth varss k Hk) in E. unfold sepset_name in E. destruct (text_ltb _ _); discriminate E. Qed.
