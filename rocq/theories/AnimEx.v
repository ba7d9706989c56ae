(** Examples for the drawn graph, and inputs on which the intended effect fails. *)
From Coq Require Import Lia.
From Verif Require Export AnimFrames.
From Verif Require Import BaseFacts.
Local Open Scope nat_scope.
Local Open Scope list_scope.

(** Separate occurrences of two texts. *)
Definition apart (a b s : text) : Prop := exists u v w, s = u ++ a ++ v ++ b ++ w \/ s = u ++ b ++ v ++ a ++ w.
Lemma apart_in a b s : apart a b s -> contains a s = true /\ contains b s = true.
Proof.
  intros (u & v & w & [-> | ->]); split; apply contains_iff.
  - now exists u, (v ++ b ++ w).
  - exists (u ++ a ++ v), w. now rewrite <- !app_assoc.
  - exists (u ++ b ++ v), w. now rewrite <- !app_assoc.
  - now exists u, (v ++ a ++ w).
Qed.
Lemma both_in_refuted :
  (exists a b s, both_in a b s = true /\ contains a s = true /\ contains b s = true /\ ~ apart a b s) /\
  (exists a b s, both_in a b s = true /\ contains b s = false) /\
  (exists a b s, both_in a b s = false /\ apart a b s) /\
  both_in (tx "abc") (tx "123") (tx "abc123 -- def") = true.
Proof.
  split; [|split; [|split]].
  - exists (tx "ab"), (tx "xabx"), (tx "axabxb"). repeat split; try reflexivity. intros (u & v & w & H).
    assert (L : length u + length v + length w = 0) by (destruct H as [H|H]; apply (f_equal (@length ascii)) in H; repeat (rewrite app_length in H; cbn [length tx list_ascii_of_string] in H); lia).
    assert (u = []) by (apply length_zero_iff_nil; lia). assert (v = []) by (apply length_zero_iff_nil; lia). assert (w = []) by (apply length_zero_iff_nil; lia). subst. destruct H as [H|H]; discriminate H.
  - now exists (tx "x"), (tx "ab"), (tx "axb").
  - exists (tx "ab"), (tx "aba"), (tx "ababa"). split; [reflexivity|]. exists [], [], []. now left.
  - reflexivity.
Qed.
Lemma both_in_some a b s : both_in a b s = true -> contains a s = true \/ contains b s = true.
Proof.
  unfold both_in, sub_and_super. destruct (contains a b), (contains b a), (contains a s), (contains b s); auto; discriminate.
Qed.

(** A chain of three clusters. *)
Definition chain : list (list text) := [[tx "a"; tx "b"]; [tx "b"; tx "c"]; [tx "c"; tx "d"]].
Definition chain_sepset (i j : nat) : option (list text * bool) :=
  match i, j with 0, 1 => Some ([tx "b"], false) | 1, 2 => Some ([tx "c"], false) | _, _ => None end.
Lemma name_ok_check v : forallb (fun c => sepchar c && negb (aeqb c "#"%char)) v = true -> name_ok v.
Proof.
  intros H. rewrite forallb_forall in H. split.
  - apply plain_text. apply forallb_forall. intros c I. apply H, andb_true_iff in I. apply I.
  - intros I. apply H in I. rewrite aeqb_refl, andb_false_r in I. discriminate I.
Qed.
Lemma names_check varss : forallb (forallb (fun v => forallb (fun c => sepchar c && negb (aeqb c "#"%char)) v)) varss = true -> forall v x, In v varss -> In x v -> name_ok x.
Proof. intros H v x Hv Hx. rewrite forallb_forall in H. apply H in Hv. rewrite forallb_forall in Hv. apply name_ok_check. now apply Hv. Qed.
Lemma chain_names v x : In v chain -> In x v -> name_ok x.
Proof. apply names_check. reflexivity. Qed.
Lemma chain_labels i j l q x : chain_sepset i j = Some (l, q) -> In x l -> plain x.
Proof. destruct i as [|[|i]], j as [|[|[|j]]]; cbn; intros [= <- <-] [<-|[]]; now apply plain_text. Qed.
Lemma chain_edge : edge_between chain_sepset 0 1 /\ edge_between chain_sepset 2 1.
Proof. split; [exists [tx "b"], false; left|exists [tx "c"], false; right]; split; (lia || reflexivity). Qed.
Lemma chain_no_edge : ~ edge_between chain_sepset 0 2.
Proof. intros (v & q & [(_ & E)|(L & _)]); [discriminate E|lia]. Qed.
Lemma chain_has k : k = 0 \/ k = 2 -> has_edge chain chain_sepset k.
Proof. intros [->| ->]; exists 1; (split; [cbn; lia|apply chain_edge]). Qed.
Lemma plain_red : plain (tx "red") /\ plain (tx "black") /\ plain (tx "white").
Proof. split; [|split]; now apply plain_text. Qed.

(** A node whose name holds a double dash is not found; a name that is the end of another one
    recolours both; part of a name is taken for a node. *)
Definition ends_alike : list (list text) := [[tx "x"; tx "c1#x,y"]; [tx "x"; tx "y"]].
Lemma node_refuted :
  (exists varss i, i < length varss /\ change_node (map (render true) (graph_lines (cluster_ids varss) (fun _ _ => None))) (nth i (cluster_ids varss) []) (tx "red") = Err ValueError) /\
  (exists varss i j, i < length varss /\ j < length varss /\ i <> j /\
     change_node (map (render true) (graph_lines (cluster_ids varss) (fun _ _ => None))) (nth i (cluster_ids varss) []) (tx "red") =
     Ok (map (render true) (drawing (cluster_ids varss) (fun _ _ => None) (fun k => if Nat.eqb k i || Nat.eqb k j then tx "red" else tx "white") (fun _ _ => tx "black")))) /\
  (exists varss a, ~ In a (cluster_ids varss) /\
     change_node (map (render true) (graph_lines (cluster_ids varss) (fun _ _ => None))) a (tx "red") = Ok (map (render true) (graph_lines (cluster_ids varss) (fun _ _ => None)))).
Proof.
  split; [|split].
  - exists [[tx "x--y"]], 0. split; [cbn; lia|]. vm_compute. reflexivity.
  - exists ends_alike, 1, 0. split; [cbn; lia|]. split; [cbn; lia|]. split; [lia|]. vm_compute. reflexivity.
  - exists [[tx "x"]], (tx "c0"). split; [intros [H|[]]; discriminate H|]. vm_compute. reflexivity.
Qed.
(** With such names a message cannot be drawn, or more nodes than the sender turn red. *)
Definition alike_sepset (i j : nat) : option (list text * bool) := match i, j with 0, 1 => Some ([tx "x"], false) | _, _ => None end.
Lemma animate_refuted :
  (exists varss sepset k l, k < l /\ l < length varss /\ sepset k l <> None /\
    animate (map (render true) (graph_lines (cluster_ids varss) sepset)) [] (nth k (cluster_ids varss) []) (nth l (cluster_ids varss) []) = Err ValueError) /\
  (exists varss sepset k l f1 frames, k < l /\ l < length varss /\ sepset k l <> None /\
    animate (map (render true) (graph_lines (cluster_ids varss) sepset)) [] (nth l (cluster_ids varss) []) (nth k (cluster_ids varss) []) =
    Ok (map (render true) (graph_lines (cluster_ids varss) sepset), f1 :: frames) /\
    f1 = map (render true) (drawing (cluster_ids varss) sepset (fun _ => tx "red") (fun _ _ => tx "black"))).
Proof.
  split.
  - exists [[tx "x"; tx "a--b"]; [tx "x"; tx "y"]], alike_sepset, 0, 1. split; [lia|]. split; [cbn; lia|]. split; [discriminate|]. vm_compute. reflexivity.
  - exists ends_alike, alike_sepset, 0, 1. do 2 eexists. split; [lia|]. split; [cbn; lia|]. split; [discriminate|]. split; vm_compute; reflexivity.
Qed.

Lemma contains_iff' p s : contains p s = false <-> ~ exists u v, s = u ++ p ++ v.
Proof.
  split.
  - intros H X. apply contains_iff in X. rewrite H in X. discriminate X.
  - intros H. destruct (contains p s) eqn:E; [|reflexivity]. exfalso. apply H. now apply contains_iff.
Qed.
Lemma node_missing_ok body a color : (forall l, In l body -> (exists u v, l = u ++ tx "--" ++ v) \/ ~ exists u v, l = u ++ a ++ v) -> change_node body a color = Err ValueError.
Proof. intros H. apply change_node_missing. intros l Hl. destruct (H l Hl) as [X|X]; [left; now apply contains_iff|right; now apply contains_iff']. Qed.
Lemma edge_missing_ok body a b color : (forall l, In l body -> ~ (exists u v, l = u ++ tx "--" ++ v) \/ ((~ exists u v, l = u ++ a ++ v) /\ ~ exists u v, l = u ++ b ++ v)) -> change_edge body a b color = Err ValueError.
Proof.
  intros H. apply change_edge_missing. intros l Hl. destruct (H l Hl) as [X|(X & Y)]; [left; now apply contains_iff'|right]. apply contains_iff' in X, Y.
  destruct (both_in a b l) eqn:E; [|reflexivity]. apply both_in_some in E. rewrite X, Y in E. destruct E; discriminate.
Qed.
Lemma both_in_occurs a b s : both_in a b s = true -> (exists u v, s = u ++ a ++ v) \/ exists u v, s = u ++ b ++ v.
Proof. intros H. apply both_in_some in H. destruct H as [H|H]; apply contains_iff in H; auto. Qed.
Lemma delimited_ex : let q := quote_char in let s := q :: tx "c1#ab" ++ q :: tx " -- " ++ q :: tx "c1#a" ++ [q] in
  ~ In q (tx "c1#a") /\ ~ In q (tx "c1#ab") /\ (exists u v, s = u ++ q :: tx "c1#a" ++ q :: v) /\ (exists u v, s = u ++ q :: tx "c1#ab" ++ q :: v).
Proof.
  cbv zeta. split; [apply plain_quote; now apply plain_text|]. split; [apply plain_quote; now apply plain_text|]. split.
  - exists (quote_char :: tx "c1#ab" ++ quote_char :: tx " -- "), []. reflexivity.
  - exists [], (tx " -- " ++ quote_char :: tx "c1#a" ++ [quote_char]). reflexivity.
Qed.
Lemma chain_good g : In g (graph_lines (cluster_ids chain) chain_sepset) -> good g.
Proof. rewrite graph_drawing, drawing_halves. apply (halves_good chain chain_sepset chain_names chain_labels); intros; [|split]; apply plain_red. Qed.
Lemma node_hyps_ex : let gs := graph_lines (cluster_ids chain) chain_sepset in
  (forall g, In g gs -> good g) /\ plain (tx "c1#b,c") /\ (exists c, In (Cluster (tx "c1#b,c") c) gs) /\
  (forall n c u, In (Cluster n c) gs -> n = u ++ tx "c1#b,c" -> n = tx "c1#b,c").
Proof.
  split; [exact chain_good|]. split; [now apply plain_text|]. split; [exists (tx "white"); vm_compute; tauto|].
  intros n c u H. vm_compute in H. repeat (destruct H as [H|H]; [first [discriminate H|injection H as <- <-]|]); try destruct H; intros E.
  - exfalso. destruct u as [|x u]; [discriminate E|]. apply (f_equal (@length ascii)) in E. cbn in E. rewrite app_length in E. cbn in E. lia.
  - reflexivity.
  - exfalso. destruct u as [|x u]; [discriminate E|]. apply (f_equal (@length ascii)) in E. cbn in E. rewrite app_length in E. cbn in E. lia.
Qed.
Lemma chain_messages m : In m [(0, 1); (1, 0); (2, 1)] -> fst m < length chain /\ snd m < length chain /\ edge_between chain_sepset (fst m) (snd m).
Proof. destruct chain_edge as (E1 & E2). intros [<-|[<-|[<-|[]]]]; cbn; repeat split; try lia; auto. now apply edge_sym. Qed.
Lemma node_names_ok varss i j k l : i < length varss -> j < length varss -> k < length varss -> l < length varss ->
  let id m := nth m (cluster_ids varss) [] in
  (id i = id j -> i = j) /\ sepset_name (id i) (id j) = sepset_name (id j) (id i) /\
  (sepset_name (id i) (id j) = sepset_name (id k) (id l) -> (i = k /\ j = l) \/ (i = l /\ j = k)) /\
  sepset_name (id i) (id j) <> id k.
Proof. intros Hi Hj Hk Hl id. split; [now apply ids_distinct|]. split; [apply name_sym|]. split; [now apply sepset_names|now apply sepset_not_id]. Qed.
