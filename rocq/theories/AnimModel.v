(** Names and colours of the drawn graph: _animation.py and the graph part of _build_graph. *)
From Coq Require Import List Ascii String Bool Arith DecimalString.
From Verif Require Export Base.
Import ListNotations.
Local Open Scope nat_scope.
Local Open Scope list_scope.

(** Texts are lists of characters. *)
Definition text := list ascii.
Definition tx (s : string) : text := list_ascii_of_string s.
Definition aeqb (a b : ascii) : bool := if ascii_dec a b then true else false.
Definition teqb (a b : text) : bool := if list_eq_dec ascii_dec a b then true else false.
(** [p in s] and [s.replace(p, "")] (all occurrences from the left, none overlapping; [skip] counts
    the characters of an occurrence still to be dropped). *)
Fixpoint starts (p s : text) : bool :=
  match p, s with
  | [], _ => true
  | a :: p', b :: s' => aeqb a b && starts p' s'
  | _, [] => false
  end.
Fixpoint contains (p s : text) : bool :=
  starts p s || match s with [] => false | _ :: t => contains p t end.
Fixpoint remove_from (p : text) (skip : nat) (s : text) : text :=
  match s with
  | [] => []
  | x :: t =>
      match skip with
      | S k => remove_from p k t
      | 0 => if starts p s then remove_from p (pred (length p)) t else x :: remove_from p 0 t
      end
  end.
Definition remove_all (p s : text) : text := match p with [] => s | _ => remove_from p 0 s end.

(** _animation.py:13-22 make_sepset_node_name; Python compares strings by code points. *)
Fixpoint text_ltb (a b : text) : bool :=
  match a, b with
  | [], [] => false
  | [], _ => true
  | _, [] => false
  | x :: a', y :: b' => if aeqb x y then text_ltb a' b' else Nat.ltb (nat_of_ascii x) (nat_of_ascii y)
  end.
Definition sepset_name (a b : text) : text :=
  let '(x, y) := if text_ltb b a then (b, a) else (a, b) in tx "sepset__" ++ x ++ tx "__" ++ y.

(** _animation.py:46-60 sub_and_super_both_in. *)
Definition sub_and_super (sub super main : text) : bool :=
  if negb (contains sub main) then false else contains sub (remove_all super main).
(** _animation.py:63-99 contains_non_overlapping_substrings. *)
Definition both_in (a b main : text) : bool :=
  if contains a b then sub_and_super a b main
  else if contains b a then sub_and_super b a main
  else if contains a main then contains b (remove_all a main) else false.

(** The regular expressions used: one character of a class, optional, or repeated as often as
    possible, with backtracking.  [\s] is a white space character, [\S] any other, [.] any character
    but the line feed. *)
Inductive cls := CLit (c : ascii) | CSpace | CNonspace | CAny.
Definition is_space (c : ascii) : bool :=
  let n := nat_of_ascii c in (Nat.leb 9 n && Nat.leb n 13) || (Nat.leb 28 n && Nat.leb n 32).
Definition in_cls (k : cls) (c : ascii) : bool :=
  match k with
  | CLit d => aeqb d c
  | CSpace => is_space c
  | CNonspace => negb (is_space c)
  | CAny => negb (Nat.eqb (nat_of_ascii c) 10)
  end.
Inductive item := One (k : cls) | Opt (k : cls) | Star (k : cls).
Section Match.
Context {B : Type}.
Fixpoint re_star (c : cls) (s : text) (k : text -> option B) : option B :=
  match s with
  | x :: t => if in_cls c x then match re_star c t k with Some r => Some r | None => k s end else k s
  | [] => k s
  end.
Fixpoint re_match (p : list item) (s : text) (k : text -> option B) : option B :=
  match p with
  | [] => k s
  | One c :: p' => match s with x :: t => if in_cls c x then re_match p' t k else None | [] => None end
  | Opt c :: p' =>
      match s with
      | x :: t => if in_cls c x then match re_match p' t k with Some r => Some r | None => re_match p' s k end else re_match p' s k
      | [] => re_match p' s k
      end
  | Star c :: p' => re_star c s (fun t => re_match p' t k)
  end.
End Match.
(** A pattern of three groups; the rests of the text after each group. *)
Record pattern := { grp1 : list item; grp2 : list item; grp3 : list item }.
Definition match3 (p : pattern) (s : text) : option (text * text * text) :=
  re_match (grp1 p) s (fun s1 => re_match (grp2 p) s1 (fun s2 => re_match (grp3 p) s2 (fun s3 => Some (s1, s2, s3)))).
(** [re.sub(pattern, "\g<1>" + color + " \g<3>", s)], for patterns that do not match the empty text. *)
Fixpoint re_sub (p : pattern) (color : text) (skip : nat) (s : text) : text :=
  match s with
  | [] => []
  | x :: t =>
      match skip with
      | S k => re_sub p color k t
      | 0 =>
          match match3 p s with
          | Some (s1, s2, s3) =>
              firstn (length s - length s1) s ++ color ++ tx " " ++ firstn (length s2 - length s3) s2 ++
              re_sub p color (pred (length s - length s3)) t
          | None => x :: re_sub p color 0 t
          end
      end
  end.
Definition lits (s : text) : list item := map (fun c => One (CLit c)) s.
Definition quote_char : ascii := ascii_of_nat 34.
Definition tab_char : ascii := ascii_of_nat 9.
(** Simplification: the names are taken literally; the code puts them into the expression as they
    are, so characters with a meaning in regular expressions are not covered. *)
Definition edge_pattern (a b : text) : pattern :=
  {| grp1 := [Opt (CLit tab_char); Opt (CLit quote_char)] ++ lits a ++ [Opt (CLit quote_char); One CSpace] ++ lits (tx "--") ++
             [One CSpace; Opt (CLit quote_char)] ++ lits b ++ [Opt (CLit quote_char); One CSpace] ++ lits (tx "[") ++ [Star CAny] ++ lits (tx "color=");
     grp2 := [Star CNonspace; One CSpace]; grp3 := [Star CAny] |}.
Definition node_pattern (a : text) : pattern :=
  {| grp1 := [Opt (CLit tab_char); Opt (CLit quote_char)] ++ lits a ++ [Opt (CLit quote_char); One CSpace] ++ lits (tx "[") ++ [Star CAny] ++ lits (tx "fillcolor=");
     grp2 := [Star CNonspace; One CSpace]; grp3 := [Star CAny] |}.

(** _animation.py:102-127 change_graph_edge_color: the lines of the graph and whether the edge was found. *)
Definition edge_line_color (a b color line : text) : text * bool :=
  if contains (tx "--") line then
    if both_in a b line then
      let l1 := re_sub (edge_pattern a b) color 0 line in
      (if teqb l1 line then re_sub (edge_pattern b a) color 0 line else l1, true)
    else (line, false)
  else (line, false).
Definition change_edge (body : list text) (a b color : text) : res (list text) :=
  let l := map (edge_line_color a b color) body in
  let* _ := raise_if (negb (existsb snd l)) ValueError in Ok (map fst l).
(** _animation.py:25-43 change_cluster_graph_edge_color. *)
Definition change_cluster_edge (body : list text) (a b color : text) : res (list text) :=
  let s := sepset_name a b in
  let* body1 := change_edge body a s color in
  change_edge body1 b s color.
(** _animation.py:130-150 change_graph_node_color. *)
Definition node_line_color (a color line : text) : text * bool :=
  if contains (tx "--") line then (line, false)
  else if contains a line then (re_sub (node_pattern a) color 0 line, true) else (line, false).
Definition change_node (body : list text) (a color : text) : res (list text) :=
  let l := map (node_line_color a color) body in
  let* _ := raise_if (negb (existsb snd l)) ValueError in Ok (map fst l).
(** _animation.py:165-189 add_message_pass_animation_frames; a frame is the body it is drawn from. *)
Definition animate (body : list text) (frames : list (list text)) (a b : text) : res (list text * list (list text)) :=
  let* b1 := change_node body a (tx "red") in
  let* b2 := change_cluster_edge b1 a b (tx "red") in
  let* b3 := change_node b2 b (tx "red") in
  let* b4 := change_node b3 a (tx "white") in
  let* b5 := change_cluster_edge b4 a b (tx "black") in
  let* b6 := change_node b5 b (tx "white") in
  Ok (b6, frames ++ [b1; b2; b3; b4; b5; b6]).

(** The lines graphviz writes for the nodes and edges of cluster_graph.py:207-236 (names in quotes,
    label first, the other attributes by name; from version 0.18 on with a line feed at the end).
    Simplification: the names hold no quotes or
    backslashes, which graphviz would escape, and no colons, which it reads as ports. *)
Inductive gline :=
  | Cluster (name color : text) | Sepset (name label : text) (quoted : bool) | Edge (a b color : text).
Definition quoted (s : text) : text := quote_char :: s ++ [quote_char].
Definition line_end (nl : bool) : text := if nl then [ascii_of_nat 10] else [].
Definition render (nl : bool) (g : gline) : text :=
  match g with
  | Cluster n c => tab_char :: quoted n ++ tx " [label=" ++ quoted n ++ tx " color=black fillcolor=" ++ c ++ tx " style=filled]" ++ line_end nl
  | Sepset n l q => tab_char :: quoted n ++ tx " [label=" ++ (if q then quoted l else l) ++ tx " shape=rectangle]" ++ line_end nl
  | Edge a b c => tab_char :: quoted a ++ tx " -- " ++ quoted b ++ tx " [color=" ++ c ++ tx " penwidth=2.0]" ++ line_end nl
  end.
(** cluster_graph.py:150-153 and _cluster.py:33: the ids of the clusters with the variables [varss]. *)
Fixpoint join (sep : text) (l : list text) : text :=
  match l with [] => [] | [x] => x | x :: t => x ++ sep ++ join sep t end.
Definition decimal (n : nat) : text := tx (NilZero.string_of_uint (Nat.to_uint n)).
Definition cluster_id (i : nat) (vars : list text) : text := tx "c" ++ decimal i ++ tx "#" ++ join (tx ",") vars.
Fixpoint ids_from (i : nat) (varss : list (list text)) : list text :=
  match varss with [] => [] | v :: t => cluster_id i v :: ids_from (S i) t end.
Definition cluster_ids (varss : list (list text)) : list text := ids_from 0 varss.
(** cluster_graph.py:207-236: the graph of the clusters [ids], with an edge for the pairs i < j in
    [sepset i j] (the variables in the order of the set, and whether graphviz quotes the label). *)
Definition pair_lines (ids : list text) (sepset : nat -> nat -> option (list text * bool)) (i j : nat) : list gline :=
  match sepset i j with
  | Some (l, q) =>
      let a := nth i ids [] in let b := nth j ids [] in
      let s := sepset_name a b in [Sepset s (join (tx ",") l) q; Edge a s (tx "black"); Edge s b (tx "black")]
  | None => []
  end.
Definition graph_lines (ids : list text) (sepset : nat -> nat -> option (list text * bool)) : list gline :=
  flat_map (fun i => Cluster (nth i ids []) (tx "white") :: flat_map (pair_lines ids sepset i) (seq (S i) (length ids - S i)))
           (seq 0 (length ids)).
(** cluster_graph.py:447-473: the frames of the messages passed, given by the ids of their senders
    and receivers. *)
Definition animate_all (body : list text) (frames : list (list text)) (msgs : list (text * text)) : res (list text * list (list text)) :=
  foldM (fun st m => animate (fst st) (snd st) (fst m) (snd m)) msgs (body, frames).
