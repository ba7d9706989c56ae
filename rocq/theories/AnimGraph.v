(** Colour changes on whole graphs, and one animated message. *)
From Coq Require Import Lia.
From Verif Require Export AnimLines.
From Verif Require Import BaseFacts.
Local Open Scope nat_scope.
Local Open Scope list_scope.

(** The intended effect: the node, resp. the edge, gets the colour. *)
Definition recolor_node (a color : text) (g : gline) : gline :=
  match g with Cluster n c => if teqb n a then Cluster n color else g | _ => g end.
Definition recolor_edge (a b color : text) (g : gline) : gline :=
  match g with
  | Edge x y c => if (teqb x a && teqb y b) || (teqb x b && teqb y a) then Edge x y color else g
  | _ => g
  end.

Lemma dash_skip x s : x <> "-"%char -> contains (tx "--") (x :: s) = contains (tx "--") s.
Proof. intros H. apply (contains_sep (tx "--") x) with (u := []); [discriminate|]. intros [E|[E|[]]]; now apply H. Qed.
Lemma dash_word n x s : x <> "-"%char -> contains (tx "--") (n ++ x :: s) = contains (tx "--") n || contains (tx "--") s.
Proof. intros H. apply (contains_sep (tx "--") x); [discriminate|]. intros [E|[E|[]]]; now apply H. Qed.
Lemma dash_text l : existsb (aeqb "-"%char) l = false -> forall s, contains (tx "--") (l ++ s) = contains (tx "--") s.
Proof.
  induction l as [|x l IH]; intros H s; [reflexivity|]. cbn [existsb] in H. apply orb_false_iff in H. destruct H as (H1 & H2). cbn [app]. rewrite dash_skip; [now apply IH|].
  intros ->. rewrite aeqb_refl in H1. discriminate H1.
Qed.
Lemma dash_quoted n s : plain n -> contains (tx "--") (quoted n ++ s) = contains (tx "--") s.
Proof. intros (_ & H). unfold quoted. cbn [app]. rewrite <- app_assoc, dash_skip by discriminate. cbn [app]. rewrite dash_word by discriminate. now rewrite H. Qed.
Lemma dash_end nl : contains (tx "--") (line_end nl) = false.
Proof. now destruct nl. Qed.
Lemma dash_cluster nl n c : good (Cluster n c) -> contains (tx "--") (render nl (Cluster n c)) = false.
Proof.
  intros (Hn & Hc). unfold render. rewrite dash_skip by discriminate. rewrite dash_quoted by exact Hn. rewrite dash_text by reflexivity. rewrite dash_quoted by exact Hn. rewrite dash_text by reflexivity.
  change (tx " style=filled]" ++ line_end nl) with (" "%char :: tx "style=filled]" ++ line_end nl). rewrite dash_word by discriminate. rewrite dash_text by reflexivity. rewrite dash_end. destruct Hc as (_ & ->). reflexivity.
Qed.
Lemma dash_sepset nl n l q : good (Sepset n l q) -> contains (tx "--") (render nl (Sepset n l q)) = false.
Proof.
  intros (Hn & Hl). unfold render. rewrite dash_skip by discriminate. rewrite dash_quoted by exact Hn. rewrite dash_text by reflexivity. destruct q.
  - rewrite dash_quoted by exact Hl. rewrite dash_text by reflexivity. apply dash_end.
  - change (tx " shape=rectangle]" ++ line_end nl) with (" "%char :: tx "shape=rectangle]" ++ line_end nl). rewrite dash_word by discriminate. rewrite dash_text by reflexivity. rewrite dash_end. destruct Hl as (_ & ->). reflexivity.
Qed.
Lemma dash_edge nl a b c : contains (tx "--") (render nl (Edge a b c)) = true.
Proof. apply contains_iff. exists (tab_char :: quoted a ++ tx " "), (tx " " ++ quoted b ++ tx " [color=" ++ c ++ tx " penwidth=2.0]" ++ line_end nl). unfold render. cbn [app]. rewrite <- app_assoc. reflexivity. Qed.

Lemma both_in_delimited q a b s : ~ In q a -> ~ In q b -> a <> b ->
  (exists u v, s = u ++ q :: a ++ q :: v) -> (exists u v, s = u ++ q :: b ++ q :: v) -> both_in a b s = true.
Proof.
  intros Na Nb D (u & v & E1) (u' & v' & E2). unfold both_in, sub_and_super.
  assert (Ca : contains a s = true) by (apply contains_iff; exists (u ++ [q]), (q :: v); rewrite E1, <- app_assoc; reflexivity).
  assert (Cb : contains b s = true) by (apply contains_iff; exists (u' ++ [q]), (q :: v'); rewrite E2, <- app_assoc; reflexivity).
  assert (G : forall p r, p <> r -> contains p r = true -> contains r p = false).
  { intros p r N H. destruct (contains r p) eqn:E; [|reflexivity]. apply contains_length in E as L. apply contains_iff in H. destruct H as (x & y & H). exfalso. apply N.
    assert (L2 : length x + (length p + length y) = length r) by (rewrite H, !app_length; reflexivity). assert (x = []) by (apply length_zero_iff_nil; lia). assert (y = []) by (apply length_zero_iff_nil; lia). subst. now rewrite app_nil_r. }
  destruct (contains a b) eqn:E3.
  - rewrite Ca. cbn [negb]. rewrite E1. apply remove_keeps; [exact Nb|now apply G].
  - destruct (contains b a) eqn:E4.
    + rewrite Cb. cbn [negb]. rewrite E2. now apply remove_keeps.
    + rewrite Ca. rewrite E2. now apply remove_keeps.
Qed.
Lemma both_in_line a b s : ~ In quote_char a -> ~ In quote_char b -> a <> b ->
  (exists u v, s = u ++ quote_char :: a ++ quote_char :: v) -> (exists u v, s = u ++ quote_char :: b ++ quote_char :: v) -> both_in a b s = true.
Proof. apply both_in_delimited. Qed.
Lemma edge_first nl a b c : exists u v, render nl (Edge a b c) = u ++ quote_char :: a ++ quote_char :: v.
Proof. exists [tab_char], (tx " -- " ++ quoted b ++ tx " [color=" ++ c ++ tx " penwidth=2.0]" ++ line_end nl). unfold render, quoted. cbn [app]. now rewrite <- !app_assoc. Qed.
Lemma edge_second nl a b c : exists u v, render nl (Edge a b c) = u ++ quote_char :: b ++ quote_char :: v.
Proof.
  exists (tab_char :: quoted a ++ tx " -- "), (tx " [color=" ++ c ++ tx " penwidth=2.0]" ++ line_end nl). unfold render. cbn [app]. rewrite <- app_assoc. f_equal. f_equal. f_equal. unfold quoted. cbn [app]. now rewrite <- app_assoc.
Qed.

(** One line. *)
Definition no_suffix (a x : text) : Prop := forall u, x = u ++ a -> x = a.
Lemma node_line nl a color g : good g -> plain a -> (forall n c, g = Cluster n c -> no_suffix a n) ->
  fst (node_line_color a color (render nl g)) = render nl (recolor_node a color g) /\ (forall c, g = Cluster a c -> snd (node_line_color a color (render nl g)) = true).
Proof.
  intros G Ha S. unfold node_line_color. destruct g as [n c|n l q|x y c].
  - rewrite (dash_cluster nl n c G). cbn [recolor_node]. destruct (teqb n a) eqn:E.
    + apply teqb_iff in E. subst n. assert (C : contains a (render nl (Cluster a c)) = true).
      { apply contains_iff. exists [tab_char; quote_char], (quote_char :: tx " [label=" ++ quoted a ++ tx " color=black fillcolor=" ++ c ++ tx " style=filled]" ++ line_end nl). unfold render, quoted. cbn [app]. now rewrite <- !app_assoc. }
      rewrite C. cbn [fst snd]. split; [|reflexivity]. destruct G as (G1 & G2). now apply node_own.
    + assert (N : n <> a) by (intros ->; rewrite (proj2 (teqb_iff a a) eq_refl) in E; discriminate). split; [|intros c0 [= -> ->]; now contradiction N].
      destruct (contains a _); cbn [fst]; [|reflexivity]. apply node_other; [exact Ha|exact G|]. intros (u & Hu). apply N. now apply (S n c eq_refl u).
  - rewrite (dash_sepset nl n l q G). split; [|discriminate]. destruct (contains a _); cbn [fst]; [|reflexivity]. now apply sepset_other.
  - rewrite dash_edge. split; [reflexivity|discriminate].
Qed.
Lemma edge_line nl a b color g : good g -> plain a -> plain b -> a <> b -> (forall x y c, g = Edge x y c -> (y = b -> no_suffix a x) /\ (y = a -> no_suffix b x)) ->
  fst (edge_line_color a b color (render nl g)) = render nl (recolor_edge a b color g) /\ (forall c, g = Edge a b c \/ g = Edge b a c -> snd (edge_line_color a b color (render nl g)) = true).
Proof.
  intros G Ha Hb D S. unfold edge_line_color. destruct g as [n c|n l q|x y c].
  - rewrite (dash_cluster nl n c G). split; [reflexivity|intros c0 [H|H]; discriminate H].
  - rewrite (dash_sepset nl n l q G). split; [reflexivity|intros c0 [H|H]; discriminate H].
  - rewrite dash_edge. destruct (S x y c eq_refl) as (S1 & S2). pose proof G as (Gx & Gy & Gc).
    assert (O1 : ~ (x = a /\ y = b) -> re_sub (edge_pattern a b) color 0 (render nl (Edge x y c)) = render nl (Edge x y c)).
    { intros N. apply edge_other; [exact Ha|exact Hb|exact G|]. intros ((u & Hu) & Hy). apply N. split; [now apply (S1 Hy u)|exact Hy]. }
    assert (O2 : ~ (x = b /\ y = a) -> re_sub (edge_pattern b a) color 0 (render nl (Edge x y c)) = render nl (Edge x y c)).
    { intros N. apply edge_other; [exact Hb|exact Ha|exact G|]. intros ((u & Hu) & Hy). apply N. split; [now apply (S2 Hy u)|exact Hy]. }
    assert (Qa : ~ In quote_char a) by (now apply plain_quote). assert (Qb : ~ In quote_char b) by (now apply plain_quote).
    cbn [recolor_edge]. destruct (teqb x a && teqb y b) eqn:E1; [|destruct (teqb x b && teqb y a) eqn:E2].
    + apply andb_true_iff in E1. destruct E1 as (E1 & E1'). apply teqb_iff in E1, E1'. subst x y. rewrite (both_in_line a b _ Qa Qb D (edge_first nl a b c) (edge_second nl a b c)). cbn [fst snd orb]. split; [|reflexivity].
      rewrite edge_own by assumption. destruct (teqb _ _) eqn:E; [|reflexivity]. apply teqb_iff in E. rewrite E. apply O2. intros (F & _). now apply D.
    + apply andb_true_iff in E2. destruct E2 as (E2 & E2'). apply teqb_iff in E2, E2'. subst x y. rewrite (both_in_line a b _ Qa Qb D (edge_second nl b a c) (edge_first nl b a c)). cbn [fst snd orb]. split; [|reflexivity].
      rewrite O1 by (intros (F & _); now apply D). rewrite (proj2 (teqb_iff _ _) eq_refl). now apply edge_own.
    + cbn [orb]. assert (N1 : ~ (x = a /\ y = b)) by (intros (-> & ->); rewrite !(proj2 (teqb_iff _ _) eq_refl) in E1; discriminate E1).
      assert (N2 : ~ (x = b /\ y = a)) by (intros (-> & ->); rewrite !(proj2 (teqb_iff _ _) eq_refl) in E2; discriminate E2). split.
      * destruct (both_in a b _); cbn [fst]; [|reflexivity]. rewrite (O1 N1), (O2 N2), (proj2 (teqb_iff _ _) eq_refl). reflexivity.
      * intros c0 [[= -> -> ->]|[= -> -> ->]]; [now contradiction N1|now contradiction N2].
Qed.

(** Whole graphs. *)
Theorem change_node_ok nl gs a color : (forall g, In g gs -> good g) -> plain a -> (exists c, In (Cluster a c) gs) -> (forall n c, In (Cluster n c) gs -> no_suffix a n) ->
  change_node (map (render nl) gs) a color = Ok (map (render nl) (map (recolor_node a color) gs)).
Proof.
  intros G Ha (c & Hc) S. unfold change_node. rewrite map_map.
  assert (E : existsb snd (map (fun g => node_line_color a color (render nl g)) gs) = true).
  { apply existsb_exists. exists (node_line_color a color (render nl (Cluster a c))). split; [apply in_map_iff; now exists (Cluster a c)|].
    apply (node_line nl a color (Cluster a c) (G _ Hc) Ha) with (c := c); [|reflexivity]. intros n c0 [= <- <-]. now apply (S a c). }
  rewrite E. cbn. f_equal. rewrite !map_map. apply map_ext_in. intros g Hg. apply (node_line nl a color g (G g Hg) Ha). intros n c0 ->. now apply (S n c0).
Qed.
Theorem change_edge_ok nl gs a b color : (forall g, In g gs -> good g) -> plain a -> plain b -> a <> b -> (exists c, In (Edge a b c) gs \/ In (Edge b a c) gs) ->
  (forall x y c, In (Edge x y c) gs -> (y = b -> no_suffix a x) /\ (y = a -> no_suffix b x)) ->
  change_edge (map (render nl) gs) a b color = Ok (map (render nl) (map (recolor_edge a b color) gs)).
Proof.
  intros G Ha Hb D (c & Hc) S. unfold change_edge. rewrite map_map.
  assert (E : existsb snd (map (fun g => edge_line_color a b color (render nl g)) gs) = true).
  { apply existsb_exists. assert (exists g, In g gs /\ (g = Edge a b c \/ g = Edge b a c)) as (g & Hg & Eg) by (destruct Hc as [H|H]; eauto).
    exists (edge_line_color a b color (render nl g)). split; [apply in_map_iff; now exists g|].
    apply (edge_line nl a b color g (G g Hg) Ha Hb D) with (c := c); [|exact Eg]. intros x y c0 ->. now apply (S x y c0). }
  rewrite E. cbn. f_equal. rewrite !map_map. apply map_ext_in. intros g Hg. apply (edge_line nl a b color g (G g Hg) Ha Hb D). intros x y c0 ->. now apply (S x y c0).
Qed.
(** A node or an edge is reported missing when its name occurs in no line of its kind. *)
Theorem change_node_missing body a color : (forall l, In l body -> contains (tx "--") l = true \/ contains a l = false) -> change_node body a color = Err ValueError.
Proof.
  intros H. unfold change_node. assert (E : existsb snd (map (node_line_color a color) body) = false).
  { destruct (existsb snd _) eqn:E; [|reflexivity]. apply existsb_exists in E. destruct E as (x & Hx & E). apply in_map_iff in Hx. destruct Hx as (l & <- & Hl). unfold node_line_color in E. destruct (H l Hl) as [H1|H1]; rewrite H1 in E; [discriminate E|]. now destruct (contains (tx "--") l). }
  now rewrite E.
Qed.
Theorem change_edge_missing body a b color : (forall l, In l body -> contains (tx "--") l = false \/ both_in a b l = false) -> change_edge body a b color = Err ValueError.
Proof.
  intros H. unfold change_edge. assert (E : existsb snd (map (edge_line_color a b color) body) = false).
  { destruct (existsb snd _) eqn:E; [|reflexivity]. apply existsb_exists in E. destruct E as (x & Hx & E). apply in_map_iff in Hx. destruct Hx as (l & <- & Hl). unfold edge_line_color in E. destruct (H l Hl) as [H1|H1]; rewrite H1 in E; [discriminate E|]. now destruct (contains (tx "--") l). }
  now rewrite E.
Qed.
