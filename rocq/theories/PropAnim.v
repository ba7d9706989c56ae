(** C117-C121: names and colours of the drawn graph.  Beside each theorem an example of its
    hypotheses. *)
From Coq Require Import Lia.
From Verif Require Import AnimEx.
Local Open Scope nat_scope.
Local Open Scope list_scope.

(** C117: changing the colour of a node changes the fill colour of that cluster and nothing else,
    and a node that is not in the graph is an error.  Holds for names without quotes, white space,
    equal signs and double dashes when no other cluster's name ends with the name; the error is
    raised when the name occurs in no line of a node. *)
Theorem c117_node_colour_partial : forall nl gs a color,
  (forall g, In g gs -> good g) -> plain a -> (exists c, In (Cluster a c) gs) ->
  (forall n c u, In (Cluster n c) gs -> n = u ++ a -> n = a) ->
  change_node (map (render nl) gs) a color =
  Ok (map (render nl) (map (fun g => match g with Cluster n c => if teqb n a then Cluster n color else g | _ => g end) gs)).
Proof. intros nl gs a color G P I S. apply change_node_ok; auto. intros n c H u E. exact (S n c u H E). Qed.
Print Assumptions c117_node_colour_partial.
Example c117_node_colour_nonvacuous : let gs := graph_lines (cluster_ids chain) chain_sepset in
  (forall g, In g gs -> good g) /\ plain (tx "c1#b,c") /\ (exists c, In (Cluster (tx "c1#b,c") c) gs) /\
  (forall n c u, In (Cluster n c) gs -> n = u ++ tx "c1#b,c" -> n = tx "c1#b,c").
Proof. exact node_hyps_ex. Qed.

Theorem c117_missing_partial : forall body a color,
  (forall l, In l body -> (exists u v, l = u ++ tx "--" ++ v) \/ ~ exists u v, l = u ++ a ++ v) ->
  change_node body a color = Err ValueError.
Proof. exact node_missing_ok. Qed.
Print Assumptions c117_missing_partial.
Example c117_missing_nonvacuous : change_node (map (render true) (graph_lines (cluster_ids chain) chain_sepset)) (tx "c3#a") (tx "red") = Err ValueError.
Proof. vm_compute. reflexivity. Qed.

Theorem c117_node_colour_refuted :
  (exists varss i, i < length varss /\ change_node (map (render true) (graph_lines (cluster_ids varss) (fun _ _ => None))) (nth i (cluster_ids varss) []) (tx "red") = Err ValueError) /\
  (exists varss i j, i < length varss /\ j < length varss /\ i <> j /\
     change_node (map (render true) (graph_lines (cluster_ids varss) (fun _ _ => None))) (nth i (cluster_ids varss) []) (tx "red") =
     Ok (map (render true) (drawing (cluster_ids varss) (fun _ _ => None) (fun k => if Nat.eqb k i || Nat.eqb k j then tx "red" else tx "white") (fun _ _ => tx "black")))) /\
  (exists varss a, ~ In a (cluster_ids varss) /\
     change_node (map (render true) (graph_lines (cluster_ids varss) (fun _ _ => None))) a (tx "red") = Ok (map (render true) (graph_lines (cluster_ids varss) (fun _ _ => None)))).
Proof. exact node_refuted. Qed.
Print Assumptions c117_node_colour_refuted.

(** C118: changing the colour of an edge of the cluster graph changes the colour of its two halves
    and nothing else, in either direction of the arguments, and an edge that is not in the graph is
    an error.  Holds for the ids of the constructor with names without quotes, white space, equal
    signs, double dashes and hash signs; an edge that is not in the graph is not noticed unless one
    of the clusters has no edge at all. *)
Theorem c118_edge_colour_partial : forall varss sepset nl nc ec k l c,
  (forall v x, In v varss -> In x v -> name_ok x) -> (forall i j v q x, sepset i j = Some (v, q) -> In x v -> plain x) ->
  k < length varss -> l < length varss -> edge_between sepset k l ->
  (forall i, i < length varss -> plain (nc i)) -> (forall i j, i < j -> j < length varss -> plain (ec i j)) -> plain c ->
  let id i := nth i (cluster_ids varss) [] in
  change_cluster_edge (map (render nl) (drawing (cluster_ids varss) sepset nc ec)) (id k) (id l) c =
  Ok (map (render nl) (drawing (cluster_ids varss) sepset nc (fun i j => if (Nat.eqb i k && Nat.eqb j l) || (Nat.eqb i l && Nat.eqb j k) then c else ec i j))).
Proof. intros varss sepset nl nc ec k l c N L Hk Hl E C1 C2 C. exact (paint_edge varss sepset nl N L nc ec k l c Hk Hl E (conj C1 C2) C). Qed.
Print Assumptions c118_edge_colour_partial.
Theorem c118_missing_edge_refuted : forall varss sepset nl nc ec k l c,
  (forall v x, In v varss -> In x v -> name_ok x) -> (forall i j v q x, sepset i j = Some (v, q) -> In x v -> plain x) ->
  k < length varss -> l < length varss -> k <> l -> ~ edge_between sepset k l ->
  (exists m, m < length varss /\ edge_between sepset k m) -> (exists m, m < length varss /\ edge_between sepset l m) ->
  (forall i, i < length varss -> plain (nc i)) -> (forall i j, i < j -> j < length varss -> plain (ec i j)) ->
  let id i := nth i (cluster_ids varss) [] in
  change_cluster_edge (map (render nl) (drawing (cluster_ids varss) sepset nc ec)) (id k) (id l) c =
  Ok (map (render nl) (drawing (cluster_ids varss) sepset nc ec)).
Proof. intros varss sepset nl nc ec k l c N L Hk Hl D E Ek El C1 C2. exact (missing_edge varss sepset nl N L nc ec k l c Hk Hl D E Ek El (conj C1 C2)). Qed.
Print Assumptions c118_missing_edge_refuted.
Theorem c118_missing_partial : forall body a b color,
  (forall l, In l body -> ~ (exists u v, l = u ++ tx "--" ++ v) \/ ((~ exists u v, l = u ++ a ++ v) /\ ~ exists u v, l = u ++ b ++ v)) ->
  change_edge body a b color = Err ValueError.
Proof. exact edge_missing_ok. Qed.
Print Assumptions c118_missing_partial.
Example c118_nonvacuous : (forall v x, In v chain -> In x v -> name_ok x) /\ (forall i j v q x, chain_sepset i j = Some (v, q) -> In x v -> plain x) /\
  edge_between chain_sepset 0 1 /\ edge_between chain_sepset 2 1 /\ ~ edge_between chain_sepset 0 2 /\ plain (tx "red").
Proof. exact (conj chain_names (conj chain_labels (conj (proj1 chain_edge) (conj (proj2 chain_edge) (conj chain_no_edge (proj1 plain_red)))))). Qed.
Example c118_missing_nonvacuous : change_edge (map (render true) (graph_lines (cluster_ids chain) chain_sepset)) (tx "c3#a") (tx "c4#b") (tx "red") = Err ValueError.
Proof. vm_compute. reflexivity. Qed.

(** C119: contains_non_overlapping_substrings says whether the two texts occur in the third without
    overlapping.  Holds for different names in quotes (the answer is True); True in general only
    means that one of them occurs. *)
Theorem c119_quoted_partial : forall q a b s, ~ In q a -> ~ In q b -> a <> b ->
  (exists u v, s = u ++ q :: a ++ q :: v) -> (exists u v, s = u ++ q :: b ++ q :: v) -> both_in a b s = true.
Proof. exact both_in_delimited. Qed.
Print Assumptions c119_quoted_partial.
Example c119_nonvacuous : let q := quote_char in let s := q :: tx "c1#ab" ++ q :: tx " -- " ++ q :: tx "c1#a" ++ [q] in
  ~ In q (tx "c1#a") /\ ~ In q (tx "c1#ab") /\ (exists u v, s = u ++ q :: tx "c1#a" ++ q :: v) /\ (exists u v, s = u ++ q :: tx "c1#ab" ++ q :: v).
Proof. exact delimited_ex. Qed.
Theorem c119_occurs_partial : forall a b s, both_in a b s = true -> (exists u v, s = u ++ a ++ v) \/ exists u v, s = u ++ b ++ v.
Proof. exact both_in_occurs. Qed.
Print Assumptions c119_occurs_partial.
Theorem c119_refuted :
  (exists a b s, both_in a b s = true /\ contains a s = true /\ contains b s = true /\
     ~ exists u v w, s = u ++ a ++ v ++ b ++ w \/ s = u ++ b ++ v ++ a ++ w) /\
  (exists a b s, both_in a b s = true /\ contains b s = false) /\
  (exists a b s, both_in a b s = false /\ exists u v w, s = u ++ a ++ v ++ b ++ w \/ s = u ++ b ++ v ++ a ++ w) /\
  both_in (tx "abc") (tx "123") (tx "abc123 -- def") = true.
Proof. exact both_in_refuted. Qed.
Print Assumptions c119_refuted.

(** C120: every message adds six frames (the sender red; the edge red too; the receiver red too;
    the sender white again; the edge black again; the receiver white again) and leaves the graph
    as it was, so any sequence of messages along edges gives the frames of its messages in order.
    Holds for names without quotes, white space, equal signs, double dashes and hash signs. *)
Theorem c120_animation_partial : forall varss sepset nl msgs frames,
  (forall v x, In v varss -> In x v -> name_ok x) -> (forall i j v q x, sepset i j = Some (v, q) -> In x v -> plain x) ->
  (forall m, In m msgs -> fst m < length varss /\ snd m < length varss /\ edge_between sepset (fst m) (snd m)) ->
  let id i := nth i (cluster_ids varss) [] in
  let picture nc ec := map (render nl) (drawing (cluster_ids varss) sepset nc ec) in
  let graph := map (render nl) (graph_lines (cluster_ids varss) sepset) in
  let white := fun _ : nat => tx "white" in
  let black := fun _ _ : nat => tx "black" in
  let red_node k := fun i => if Nat.eqb i k then tx "red" else tx "white" in
  let red_both k l := fun i => if Nat.eqb i k || Nat.eqb i l then tx "red" else tx "white" in
  let red_edge k l := fun i j => if (Nat.eqb i k && Nat.eqb j l) || (Nat.eqb i l && Nat.eqb j k) then tx "red" else tx "black" in
  animate_all graph frames (map (fun m => (id (fst m), id (snd m))) msgs) =
  Ok (graph, frames ++ flat_map (fun m => let k := fst m in let l := snd m in
    [picture (red_node k) black; picture (red_node k) (red_edge k l); picture (red_both k l) (red_edge k l);
     picture (red_node l) (red_edge k l); picture (red_node l) black; graph]) msgs).
Proof. intros varss sepset nl msgs frames N L H. exact (animate_all_ok varss sepset nl N L msgs H frames). Qed.
Print Assumptions c120_animation_partial.
Example c120_nonvacuous : forall m, In m [(0, 1); (1, 0); (2, 1)] -> fst m < length chain /\ snd m < length chain /\ edge_between chain_sepset (fst m) (snd m).
Proof. exact chain_messages. Qed.
Theorem c120_refuted :
  (exists varss sepset k l, k < l /\ l < length varss /\ sepset k l <> None /\
    animate (map (render true) (graph_lines (cluster_ids varss) sepset)) [] (nth k (cluster_ids varss) []) (nth l (cluster_ids varss) []) = Err ValueError) /\
  (exists varss sepset k l f1 frames, k < l /\ l < length varss /\ sepset k l <> None /\
    animate (map (render true) (graph_lines (cluster_ids varss) sepset)) [] (nth l (cluster_ids varss) []) (nth k (cluster_ids varss) []) =
    Ok (map (render true) (graph_lines (cluster_ids varss) sepset), f1 :: frames) /\
    f1 = map (render true) (drawing (cluster_ids varss) sepset (fun _ => tx "red") (fun _ _ => tx "black"))).
Proof. exact animate_refuted. Qed.
Print Assumptions c120_refuted.

(** C121: the nodes of the drawn graph have different names: the ids of the clusters are different,
    the name of a sepset does not depend on the order of its clusters and determines them, and it is
    not the id of a cluster.  For variables with any names. *)
Theorem c121_node_names : forall varss i j k l, i < length varss -> j < length varss -> k < length varss -> l < length varss ->
  let id m := nth m (cluster_ids varss) [] in
  (id i = id j -> i = j) /\ sepset_name (id i) (id j) = sepset_name (id j) (id i) /\
  (sepset_name (id i) (id j) = sepset_name (id k) (id l) -> (i = k /\ j = l) \/ (i = l /\ j = k)) /\
  sepset_name (id i) (id j) <> id k.
Proof. exact node_names_ok. Qed.
Print Assumptions c121_node_names.
Example c121_nonvacuous : cluster_ids chain = [tx "c0#a,b"; tx "c1#b,c"; tx "c2#c,d"] /\ sepset_name (tx "c1#b,c") (tx "c0#a,b") = tx "sepset__c0#a,b__c1#b,c".
Proof. split; vm_compute; reflexivity. Qed.
