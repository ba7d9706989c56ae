(** The effect of the two colour changes on the lines graphviz writes. *)
From Coq Require Import Lia.
From Verif Require Export AnimFacts.
From Verif Require Import BaseFacts.
Local Open Scope nat_scope.
Local Open Scope list_scope.

Definition eq_char : ascii := ascii_of_nat 61.
Definition br_char : ascii := ascii_of_nat 91.
(** Names, labels and colours without quotes, white space, equal signs and double dashes. *)
Definition plain (n : text) : Prop :=
  (forall c, In c n -> c <> quote_char /\ is_space c = false /\ c <> eq_char) /\ contains (tx "--") n = false.
Definition good (g : gline) : Prop :=
  match g with
  | Cluster n c => plain n /\ plain c
  | Sepset n l _ => plain n /\ plain l
  | Edge a b c => plain a /\ plain b /\ plain c
  end.
Lemma plain_quote n : plain n -> ~ In quote_char n.
Proof. intros (H & _) I. now destruct (H _ I). Qed.
Lemma plain_eq n : plain n -> ~ In eq_char n.
Proof. intros (H & _) I. now destruct (H _ I) as (_ & _ & E). Qed.
Lemma plain_space n c : plain n -> In c n -> is_space c = false.
Proof. intros (H & _) I. now destruct (H _ I) as (_ & E & _). Qed.
Lemma plain_any n x : plain n -> In x n -> in_cls CAny x = true.
Proof. intros H I. pose proof (plain_space n x H I) as S. cbn. unfold is_space in S. destruct (Nat.eqb_spec (nat_of_ascii x) 10) as [E|]; [|reflexivity]. rewrite E in S. discriminate S. Qed.

(** Occurrences of a text that ends with an equal sign. *)
Lemma occ_eq (K A B u w : text) (c : ascii) : ~ In c A -> ~ In c K -> A ++ c :: B = u ++ K ++ c :: w -> (exists y, A = y ++ K) \/ exists y, B = y ++ K ++ c :: w.
Proof.
  intros NA NK H. rewrite app_assoc in H. apply app_eq_app in H. destruct H as (l & [(E1 & E2)|(E1 & E2)]).
  - destruct l as [|z l]; [left; exists u; now rewrite E1, app_nil_r|]. injection E2 as <- E2. exfalso. apply NA. rewrite E1. apply in_or_app. right. now left.
  - destruct l as [|z l]; [left; exists u; now rewrite E1, app_nil_r|]. injection E2 as <- E2. right.
    apply app_eq_app in E1. destruct E1 as (m & [(F1 & F2)|(F1 & F2)]).
    + destruct m as [|z m]; [cbn in F2; exfalso; apply NK; rewrite <- F2; now left|]. injection F2 as <- F2. exists m. rewrite E2, F2, <- app_assoc. reflexivity.
    + exfalso. apply NK. rewrite F2. apply in_or_app. right. now left.
Qed.
Lemma last_suffix (A y K : text) d : A = y ++ K -> K <> [] -> last A d = last K d.
Proof. intros -> N. induction y as [|c y IH]; [reflexivity|]. cbn. rewrite <- IH. destruct (y ++ K) eqn:E; [|reflexivity]. apply app_eq_nil in E. now destruct E. Qed.
Lemma last_app (A B : text) d : B <> [] -> last (A ++ B) d = last B d.
Proof. intros N. now apply (last_suffix _ A B). Qed.

(** White space followed by an opening bracket. *)
Fixpoint npair (p : bool) (s : text) : bool :=
  match s with [] => true | x :: t => negb (p && aeqb x br_char) && npair (is_space x) t end.
Lemma npair_word n : (forall c, In c n -> is_space c = false) -> forall s, npair false (n ++ s) = npair false s.
Proof. induction n as [|c n IH]; intros H s; [reflexivity|]. cbn. rewrite (H c) by now left. apply IH. intros d Hd. apply H. now right. Qed.
Lemma npair_no x A B : is_space x = true -> forall p, npair p (A ++ x :: br_char :: B) = false.
Proof.
  intros S. induction A as [|c A IH]; intros p; cbn.
  - rewrite S. cbn. now rewrite andb_false_r.
  - rewrite IH. apply andb_false_r.
Qed.
Lemma pair_unique L R A x B sp : is_space x = true -> sp <> br_char -> npair false L = true -> npair false (br_char :: R) = true ->
  L ++ sp :: br_char :: R = A ++ x :: br_char :: B -> A = L /\ x = sp /\ B = R.
Proof.
  intros S N HL HR H. apply app_eq_app in H. destruct H as (l & [(E1 & E2)|(E1 & E2)]).
  - destruct l as [|z l]; [cbn in E2; injection E2 as <- <-; now rewrite E1, app_nil_r|]. injection E2 as <- E2. destruct l as [|y l].
    + cbn in E2. injection E2 as E2. now contradiction N.
    + cbn in E2. injection E2 as <- E2. rewrite E1 in HL. rewrite (npair_no x A l S) in HL. discriminate HL.
  - destruct l as [|z l]; [cbn in E2; injection E2 as <- <-; now rewrite E1, app_nil_r|]. injection E2 as <- E2. rewrite E2 in HR. rewrite (npair_no x l B S) in HR. discriminate HR.
Qed.

Lemma space_char : is_space " "%char = true.
Proof. reflexivity. Qed.
Lemma quoted_split n U a q : plain n -> plain a -> (q = [] \/ q = [quote_char]) -> U ++ a ++ q = tab_char :: quoted n -> exists u, n = u ++ a.
Proof.
  intros Hn Ha Hq H. assert (E : tab_char :: quoted n = (tab_char :: quote_char :: n) ++ [quote_char]) by reflexivity. rewrite E in H.
  destruct Hq as [-> | ->].
  - destruct a as [|c a] using rev_ind; [exists n; now rewrite app_nil_r|]. clear IHa. rewrite app_nil_r, app_assoc in H. apply app_inj_tail in H. destruct H as (_ & ->).
    exfalso. apply (plain_quote _ Ha). apply in_or_app. right. now left.
  - rewrite app_assoc in H. apply app_inj_tail in H. destruct H as (H & _). change (tab_char :: quote_char :: n) with ([tab_char; quote_char] ++ n) in H.
    apply app_eq_app in H. destruct H as (l & [(E1 & E2)|(E1 & E2)]).
    + now exists l.
    + destruct l as [|z l]; [exists []; now rewrite E2|]. exfalso. apply (plain_quote _ Ha). rewrite E2. apply in_or_app. left.
      destruct U as [|u1 [|u2 U]]; cbn in E1.
      * rewrite <- E1. right. now left.
      * injection E1 as <- <- <-. now left.
      * injection E1 as <- <- E1. destruct U; discriminate E1.
Qed.

(** Occurrences of the node expression. *)
Lemma node_denotes a w : denotes (grp1 (node_pattern a)) w -> exists u q x v, w = u ++ a ++ q ++ x :: br_char :: v ++ tx "fillcolor" ++ [eq_char] /\ (q = [] \/ q = [quote_char]) /\ is_space x = true.
Proof.
  intros H. cbn [node_pattern grp1 app] in H. apply denotes_opt in H. destruct H as (q1 & w1 & -> & _ & H). apply denotes_opt in H. destruct H as (q2 & w2 & -> & _ & H).
  apply denotes_lits in H. destruct H as (w3 & -> & H). apply denotes_opt in H. destruct H as (q & w4 & -> & Hq & H). destruct H as (x & w5 & -> & Hx & H).
  apply (denotes_lits (tx "[")) in H. destruct H as (w6 & -> & H). destruct H as (v & w7 & -> & _ & H).
  rewrite <- (app_nil_r (lits (tx "fillcolor="))) in H. apply denotes_lits in H. destruct H as (w8 & -> & H). cbn in H. subst w8.
  exists (q1 ++ q2), q, x, v. split; [|split; [exact Hq|exact Hx]]. rewrite <- !app_assoc. reflexivity.
Qed.
(** Occurrences of the edge expression. *)
Lemma edge_denotes a b w : denotes (grp1 (edge_pattern a b)) w -> exists u q1 x1 x2 q2 q3 x3 v,
  w = u ++ a ++ q1 ++ x1 :: tx "--" ++ x2 :: q2 ++ b ++ q3 ++ x3 :: br_char :: v /\
  (q1 = [] \/ q1 = [quote_char]) /\ (q2 = [] \/ q2 = [quote_char]) /\ (q3 = [] \/ q3 = [quote_char]) /\ is_space x1 = true /\ is_space x2 = true /\ is_space x3 = true.
Proof.
  intros H. cbn [edge_pattern grp1 app] in H. apply denotes_opt in H. destruct H as (p1 & w1 & -> & _ & H). apply denotes_opt in H. destruct H as (p2 & w2 & -> & _ & H).
  apply denotes_lits in H. destruct H as (w3 & -> & H). apply denotes_opt in H. destruct H as (q1 & w4 & -> & Hq1 & H). destruct H as (x1 & w5 & -> & Hx1 & H).
  apply (denotes_lits (tx "--")) in H. destruct H as (w6 & -> & H). destruct H as (x2 & w7 & -> & Hx2 & H). apply denotes_opt in H. destruct H as (q2 & w8 & -> & Hq2 & H).
  apply denotes_lits in H. destruct H as (w9 & -> & H). apply denotes_opt in H. destruct H as (q3 & w10 & -> & Hq3 & H). destruct H as (x3 & w11 & -> & Hx3 & H).
  apply (denotes_lits (tx "[")) in H. destruct H as (w12 & -> & H).
  exists (p1 ++ p2), q1, x1, x2, q2, q3, x3, w12. split; [|repeat split; assumption]. rewrite <- !app_assoc. reflexivity.
Qed.

(** The lines as prefix, colour and rest. *)
Definition node_prefix (n : text) : text := tab_char :: quoted n ++ tx " [label=" ++ quoted n ++ tx " color=black fillcolor=".
Definition edge_prefix (a b : text) : text := tab_char :: quoted a ++ tx " -- " ++ quoted b ++ tx " [color=".
Lemma render_cluster nl n c : render nl (Cluster n c) = node_prefix n ++ c ++ tx " " ++ tx "style=filled]" ++ line_end nl.
Proof. unfold render, node_prefix. cbn [app]. rewrite <- !app_assoc. reflexivity. Qed.
Lemma render_edge nl a b c : render nl (Edge a b c) = edge_prefix a b ++ c ++ tx " " ++ tx "penwidth=2.0]" ++ line_end nl.
Proof. unfold render, edge_prefix. cbn [app]. rewrite <- !app_assoc. reflexivity. Qed.
Lemma quoted_nospace n : plain n -> forall c, In c (quoted n) -> is_space c = false.
Proof. intros H c [<-|Hc]; [reflexivity|]. apply in_app_or in Hc. destruct Hc as [Hc|[<-|[]]]; [now apply (plain_space n)|reflexivity]. Qed.
Lemma npair_end nl : npair false (line_end nl) = true.
Proof. now destruct nl. Qed.
Ltac np := repeat first [rewrite npair_word by (first [now apply quoted_nospace|intros ? ?; now eapply plain_space; eauto])].

Lemma node_other nl a n c color : plain a -> good (Cluster n c) -> ~ (exists u, n = u ++ a) -> re_sub (node_pattern a) color 0 (render nl (Cluster n c)) = render nl (Cluster n c).
Proof.
  intros Ha (Hn & Hc) N. apply re_sub_none. intros u w t E D. apply node_denotes in D. destruct D as (u1 & q & x & v & -> & Hq & Hx). apply N.
  apply (quoted_split n (u ++ u1) a q); auto.
  destruct (pair_unique (tab_char :: quoted n) (tx "label=" ++ quoted n ++ tx " color=black fillcolor=" ++ c ++ tx " style=filled]" ++ line_end nl) ((u ++ u1) ++ a ++ q) x ((v ++ tx "fillcolor" ++ [eq_char]) ++ t) " "%char Hx) as (H & _ & _); [discriminate| | | |exact H].
  - change (tab_char :: quoted n) with ([tab_char; quote_char] ++ n ++ [quote_char]). cbn [app npair]. cbn -[app]. rewrite npair_word; [reflexivity|intros d Hd; now apply (plain_space n)].
  - cbn -[app]. cbn [app npair]. cbn -[app].
    rewrite npair_word by (now apply quoted_nospace). cbn -[app]. rewrite npair_word by (intros d Hd; now apply (plain_space c)). cbn -[line_end]. now destruct nl.
  - unfold render in E. rewrite <- !app_assoc in *. cbn [app] in *. rewrite <- !app_assoc in *. cbn [app] in *. exact E.
Qed.
(** The line of the node itself gets the colour. *)
Lemma end_clean nl color p : (forall w, denotes (grp1 p) w -> In br_char w) -> re_sub p color 0 (line_end nl) = line_end nl.
Proof.
  intros H. apply re_sub_none. intros u w t E D. apply H in D. assert (I : In br_char (line_end nl)) by (rewrite E; apply in_or_app; right; apply in_or_app; now left).
  destruct nl; cbn in I; [destruct I as [I|[]]; discriminate I|exact I].
Qed.
Lemma no_key (K c a b : text) nl : ~ In eq_char K -> K <> [] -> plain c -> ~ In eq_char a -> ~ In eq_char b -> a <> [] -> last a eq_char <> last K eq_char ->
  forall z w, c ++ tx " " ++ (a ++ eq_char :: b) ++ line_end nl <> z ++ K ++ eq_char :: w.
Proof.
  intros NK K0 Hc Na Nb A0 HL z w E.
  replace (c ++ tx " " ++ (a ++ eq_char :: b) ++ line_end nl) with ((c ++ tx " " ++ a) ++ eq_char :: b ++ line_end nl) in E by (rewrite <- !app_assoc; reflexivity).
  apply occ_eq in E; [|intros I; apply in_app_or in I; destruct I as [I|[I|I]]; [now apply (plain_eq c Hc)|discriminate I|now apply Na]|exact NK].
  destruct E as [(y & Ez)|(y & Ez)].
  - apply HL. rewrite <- (last_suffix _ _ _ eq_char Ez K0). rewrite app_assoc. now rewrite last_app.
  - assert (I : In eq_char (b ++ line_end nl)) by (rewrite Ez; apply in_or_app; right; apply in_or_app; right; now left).
    apply in_app_or in I. destruct I as [I|I]; [now apply Nb|]. destruct nl; cbn in I; [destruct I as [I|[]]; discriminate I|exact I].
Qed.
Lemma key_shift (K B y t : text) : ~ In eq_char K -> y <> [] -> K ++ eq_char :: B = y ++ K ++ eq_char :: t -> exists m, B = m ++ K ++ eq_char :: t.
Proof.
  intros NK Y E. rewrite app_assoc in E. assert (Ly : 0 < length y) by (destruct y; [easy|cbn; lia]). apply app_eq_app in E. destruct E as (l & [(E1 & E2)|(E1 & E2)]).
  - apply (f_equal (@length ascii)) in E1. rewrite !app_length in E1. lia.
  - destruct l as [|d l]; [rewrite app_nil_r in E1; apply (f_equal (@length ascii)) in E1; rewrite !app_length in E1; lia|]. injection E2 as <- E2.
    apply app_eq_app in E1. destruct E1 as (m & [(G1 & G2)|(G1 & G2)]).
    + destruct m as [|d m]; [exfalso; apply NK; cbn in G2; rewrite <- G2; now left|]. injection G2 as <- G2. exists m. now rewrite E2, G2, <- app_assoc.
    + exfalso. apply NK. rewrite G2. apply in_or_app. right. now left.
Qed.
(** After the last name in the pattern: any characters, the key, the colour. *)
Definition after_key (s1 : text) : option (text * text * text) :=
  re_match [Star CNonspace; One CSpace] s1 (fun s2 => re_match [Star CAny] s2 (fun s3 => Some (s1, s2, s3))).
Lemma color_match (K M c a b : text) nl :
  ~ In eq_char K -> K <> [] -> (forall x, In x M -> in_cls CAny x = true) -> plain c -> ~ In eq_char a -> ~ In eq_char b -> a <> [] ->
  last a eq_char <> last K eq_char -> (forall x, In x (a ++ eq_char :: b) -> in_cls CAny x = true) ->
  re_match ([Star CAny] ++ lits (K ++ [eq_char])) (M ++ K ++ eq_char :: c ++ tx " " ++ (a ++ eq_char :: b) ++ line_end nl) after_key =
  Some (c ++ tx " " ++ (a ++ eq_char :: b) ++ line_end nl, (a ++ eq_char :: b) ++ line_end nl, line_end nl).
Proof.
  intros NK K0 HM Hc Na Nb A0 HL Hab. cbn [app]. rewrite re_match_star. rewrite <- (app_nil_r (lits (K ++ [eq_char]))).
  apply (re_star_last CAny (fun t => re_match (lits (K ++ [eq_char]) ++ []) t after_key) (K ++ eq_char :: c ++ tx " " ++ (a ++ eq_char :: b) ++ line_end nl)); [| |exact HM].
  - replace (K ++ eq_char :: c ++ tx " " ++ (a ++ eq_char :: b) ++ line_end nl) with ((K ++ [eq_char]) ++ c ++ tx " " ++ (a ++ eq_char :: b) ++ line_end nl) by (now rewrite <- app_assoc).
    rewrite re_lits. cbn [re_match]. unfold after_key. rewrite re_match_star.
    apply (re_star_stop CNonspace _ (tx " " ++ (a ++ eq_char :: b) ++ line_end nl)); [|reflexivity|intros x Hx; cbn; now rewrite (plain_space c x Hc Hx)].
    change (tx " ") with [" "%char]. cbn [app]. rewrite re_one by reflexivity. cbn [re_match].
    apply (re_star_stop CAny _ (line_end nl)); [reflexivity|now destruct nl|exact Hab].
  - intros y w E Hy. apply re_lits_none. intros t Et. subst w. rewrite <- (app_assoc K [eq_char] t) in E. cbn [app] in E.
    apply key_shift in E; [|exact NK|exact Hy]. destruct E as (m & E). now apply (no_key K c a b nl NK K0 Hc Na Nb A0 HL) in E.
Qed.
Lemma not_in_tx s c : existsb (aeqb c) (tx s) = false -> ~ In c (tx s).
Proof. intros H I. assert (E : existsb (aeqb c) (tx s) = true) by (apply existsb_exists; exists c; split; [exact I|apply aeqb_refl]). congruence. Qed.
Lemma all_tx s k : forallb (in_cls k) (tx s) = true -> forall x, In x (tx s) -> in_cls k x = true.
Proof. intros H. now apply forallb_forall. Qed.
Lemma quoted_any n x : plain n -> In x (quoted n) -> in_cls CAny x = true.
Proof. intros H [<-|Hx]; [reflexivity|]. apply in_app_or in Hx. destruct Hx as [Hx|[<-|[]]]; [now apply (plain_any n)|reflexivity]. Qed.
Lemma node_own nl n c color : plain n -> plain c -> re_sub (node_pattern n) color 0 (render nl (Cluster n c)) = render nl (Cluster n color).
Proof.
  intros Hn Hc. rewrite !render_cluster. apply re_sub_hit; [discriminate| |apply end_clean; intros w D; apply node_denotes in D; destruct D as (u & q & x & v & -> & _); apply in_or_app; right; apply in_or_app; right; apply in_or_app; right; right; now left].
  unfold match3. fold after_key. cbn [node_pattern grp1 grp2 grp3].
  unfold node_prefix. cbn [app]. rewrite <- !app_assoc.
  apply re_opt; [reflexivity|]. unfold quoted. cbn [app]. apply re_opt; [reflexivity|]. rewrite <- !app_assoc. rewrite re_lits. cbn [app].
  apply re_opt; [reflexivity|]. change (tx " [label=") with (" "%char :: br_char :: tx "label="). cbn [app]. rewrite re_one by reflexivity. change (lits (tx "[")) with [One (CLit br_char)]. cbn [app]. rewrite re_one by reflexivity.
  pose proof (color_match (tx "fillcolor") (tx "label=" ++ quoted n ++ tx " color=black ") c (tx "style") (tx "filled]") nl) as C. unfold quoted in C. cbn [app] in C. rewrite <- !app_assoc in C. cbn [app] in C. rewrite <- !app_assoc in C.
  apply C; clear C; try (apply not_in_tx; reflexivity); try discriminate; [|exact Hc|now apply (all_tx "style=filled]")].
  intros x Hx. apply in_app_or in Hx. destruct Hx as [Hx|[<-|Hx]]; [revert Hx; now apply all_tx|reflexivity|]. apply in_app_or in Hx. destruct Hx as [Hx|Hx]; [now apply (plain_any n)|].
  destruct Hx as [<-|Hx]; [reflexivity|]. revert Hx. now apply all_tx.
Qed.
(** The lines of sepset nodes have no fill colour. *)
Lemma sepset_other nl a n l q color : plain a -> good (Sepset n l q) -> re_sub (node_pattern a) color 0 (render nl (Sepset n l q)) = render nl (Sepset n l q).
Proof.
  intros Ha (Hn & Hl). apply re_sub_none. intros u w t E D. apply node_denotes in D. destruct D as (u1 & p & x & v & -> & Hp & Hx).
  assert (H : render nl (Sepset n l q) = (u ++ u1 ++ a ++ p ++ x :: br_char :: v) ++ tx "fillcolor" ++ eq_char :: t).
  { rewrite E. rewrite <- !app_assoc. cbn [app]. rewrite <- !app_assoc. reflexivity. }
  assert (NK : ~ In eq_char (tx "fillcolor")) by (now apply not_in_tx).
  assert (Q : ~ In eq_char (if q then quoted l else l)).
  { destruct q; [|now apply plain_eq]. intros [I|I]; [discriminate I|]. apply in_app_or in I. destruct I as [I|[I|[]]]; [now apply (plain_eq l Hl)|discriminate I]. }
  assert (S : render nl (Sepset n l q) = (tab_char :: quoted n ++ tx " [label") ++ eq_char :: (if q then quoted l else l) ++ tx " " ++ (tx "shape" ++ eq_char :: tx "rectangle]") ++ line_end nl).
  { unfold render. cbn [app]. rewrite <- !app_assoc. reflexivity. }
  rewrite S in H. apply occ_eq in H; [|intros [I|I]; [discriminate I|]; apply in_app_or in I; destruct I as [[I|I]|I]; [discriminate I| |revert I; now apply not_in_tx];
    apply in_app_or in I; destruct I as [I|[I|[]]]; [now apply (plain_eq n Hn)|discriminate I]|exact NK].
  destruct H as [(y & H)|(y & H)].
  - apply (last_suffix _ _ _ eq_char) in H; [|discriminate]. rewrite app_comm_cons, last_app in H by discriminate. discriminate H.
  - replace ((if q then quoted l else l) ++ tx " " ++ (tx "shape" ++ eq_char :: tx "rectangle]") ++ line_end nl) with (((if q then quoted l else l) ++ tx " shape") ++ eq_char :: tx "rectangle]" ++ line_end nl) in H by (rewrite <- !app_assoc; reflexivity).
    apply occ_eq in H; [|intros I; apply in_app_or in I; destruct I as [I|I]; [now apply Q|revert I; now apply not_in_tx]|exact NK].
    destruct H as [(z & H)|(z & H)].
    + apply (last_suffix _ _ _ eq_char) in H; [|discriminate]. rewrite last_app in H by discriminate. discriminate H.
    + assert (I : In eq_char (tx "rectangle]" ++ line_end nl)) by (rewrite H; apply in_or_app; right; apply in_or_app; right; now left).
      apply in_app_or in I. destruct I as [I|I]; [revert I; now apply not_in_tx|]. destruct nl; cbn in I; [destruct I as [I|[]]; discriminate I|exact I].
Qed.

(** Edges. *)
Lemma last_space (A B : text) (x y : ascii) A' B' : is_space x = true -> is_space y = true -> (forall c, In c B -> is_space c = false) -> (forall c, In c B' -> is_space c = false) ->
  A ++ x :: B = A' ++ y :: B' -> A = A' /\ x = y /\ B = B'.
Proof.
  intros Hx Hy HB HB' E. apply app_eq_app in E. destruct E as (l & [(E1 & E2)|(E1 & E2)]).
  - destruct l as [|z l]; [cbn in E2; injection E2 as -> ->; now rewrite E1, app_nil_r|]. injection E2 as <- E2. exfalso. specialize (HB' x). rewrite E2 in HB'. rewrite HB' in Hx; [discriminate Hx|]. apply in_or_app. right. now left.
  - destruct l as [|z l]; [cbn in E2; injection E2 as -> ->; now rewrite E1, app_nil_r|]. injection E2 as <- E2. exfalso. specialize (HB y). rewrite E2 in HB. rewrite HB in Hy; [discriminate Hy|]. apply in_or_app. right. now left.
Qed.
Lemma quoted_inj q2 b q3 y : plain b -> plain y -> (q2 = [] \/ q2 = [quote_char]) -> (q3 = [] \/ q3 = [quote_char]) -> q2 ++ b ++ q3 = quoted y -> b = y.
Proof.
  intros Hb Hy H2 H3 E. unfold quoted in E. destruct H2 as [-> | ->].
  - destruct b as [|c b]; cbn in E; [destruct H3 as [-> | ->]; [discriminate E|]; injection E as E; destruct y; discriminate E|]. injection E as -> _. exfalso. apply (plain_quote _ Hb). now left.
  - injection E as E. destruct H3 as [-> | ->].
    + rewrite app_nil_r in E. exfalso. apply (plain_quote _ Hb). rewrite E. apply in_or_app. right. now left.
    + now apply app_inj_tail in E.
Qed.
Lemma edge_other nl a b x y c color : plain a -> plain b -> good (Edge x y c) -> ~ ((exists u, x = u ++ a) /\ y = b) ->
  re_sub (edge_pattern a b) color 0 (render nl (Edge x y c)) = render nl (Edge x y c).
Proof.
  intros Ha Hb (Hx & Hy & Hc) N. apply re_sub_none. intros u w t E D. apply edge_denotes in D. destruct D as (u1 & q1 & x1 & x2 & q2 & q3 & x3 & v & -> & Q1 & Q2 & Q3 & S1 & S2 & S3).
  destruct (pair_unique (tab_char :: quoted x ++ tx " -- " ++ quoted y) (tx "color=" ++ c ++ tx " penwidth=2.0]" ++ line_end nl) (u ++ u1 ++ a ++ q1 ++ x1 :: tx "--" ++ x2 :: q2 ++ b ++ q3) x3 (v ++ t) " "%char S3) as (H & _ & _); [discriminate| | | |].
  - change (tab_char :: quoted x ++ tx " -- " ++ quoted y) with (tab_char :: quoted x ++ " "%char :: "-"%char :: "-"%char :: " "%char :: quote_char :: y ++ [quote_char]). unfold quoted. cbn [app]. cbn -[app].
    rewrite <- app_assoc. rewrite npair_word by (intros d Hd; now apply (plain_space x)). cbn [app npair]. cbn -[app]. rewrite npair_word by (intros d Hd; now apply (plain_space y)). reflexivity.
  - cbn -[app]. cbn [app npair]. cbn -[app]. rewrite npair_word by (intros d Hd; now apply (plain_space c)). cbn -[line_end]. now destruct nl.
  - unfold render in E. rewrite <- !app_assoc in *. cbn [app] in *. repeat (rewrite <- app_assoc in E). repeat rewrite <- app_assoc. cbn [app] in *. repeat (rewrite <- app_assoc in E). repeat rewrite <- app_assoc. exact E.
  - assert (G : (u ++ u1 ++ a ++ q1 ++ x1 :: tx "--") ++ x2 :: q2 ++ b ++ q3 = (tab_char :: quoted x ++ tx " --") ++ " "%char :: quoted y).
    { rewrite <- !app_assoc. cbn [app]. rewrite <- !app_assoc. rewrite H. cbn [app]. reflexivity. }
    apply last_space in G; [|exact S2|reflexivity| |now apply quoted_nospace].
    + destruct G as (G1 & _ & G2). apply quoted_inj in G2; auto. subst y. apply N. split; [|reflexivity].
      assert (F : (u ++ u1 ++ a ++ q1) ++ x1 :: tx "--" = (tab_char :: quoted x) ++ " "%char :: tx "--") by (rewrite <- !app_assoc; exact G1).
      apply last_space in F; [|exact S1|reflexivity| |]; try (intros d [<-|[<-|[]]]; reflexivity). destruct F as (F & _ & _). apply (quoted_split x (u ++ u1) a q1); auto. now rewrite <- app_assoc.
    + intros d Hd. apply in_app_or in Hd. destruct Hd as [Hd|Hd]; [destruct Q2 as [-> | ->]; [destruct Hd|destruct Hd as [<-|[]]; reflexivity]|].
      apply in_app_or in Hd. destruct Hd as [Hd|Hd]; [now apply (plain_space b)|]. destruct Q3 as [-> | ->]; [destruct Hd|destruct Hd as [<-|[]]; reflexivity].
Qed.
Lemma edge_own nl a b c color : plain a -> plain b -> plain c -> re_sub (edge_pattern a b) color 0 (render nl (Edge a b c)) = render nl (Edge a b color).
Proof.
  intros Ha Hb Hc. rewrite !render_edge. apply re_sub_hit; [discriminate| |apply end_clean; intros w D; apply edge_denotes in D; destruct D as (u & q1 & x1 & x2 & q2 & q3 & x3 & v & -> & _)].
  - unfold match3. fold after_key. cbn [edge_pattern grp1 grp2 grp3].
    unfold edge_prefix. cbn [app]. rewrite <- !app_assoc. apply re_opt; [reflexivity|]. unfold quoted. cbn [app]. apply re_opt; [reflexivity|]. rewrite <- !app_assoc. rewrite re_lits. cbn [app].
    apply re_opt; [reflexivity|]. change (tx " -- ") with (" "%char :: "-"%char :: "-"%char :: [" "%char]). change (lits (tx "--")) with [One (CLit "-"%char); One (CLit "-"%char)]. cbn [app]. do 4 rewrite re_one by reflexivity.
    apply re_opt; [reflexivity|]. repeat rewrite <- app_assoc. rewrite re_lits. cbn [app]. apply re_opt; [reflexivity|]. change (tx " [color=") with (" "%char :: br_char :: tx "color="). change (lits (tx "[")) with [One (CLit br_char)]. cbn [app]. do 2 rewrite re_one by reflexivity.
    pose proof (color_match (tx "color") [] c (tx "penwidth") (tx "2.0]") nl) as C. apply C; clear C; try (apply not_in_tx; reflexivity); try discriminate; [|exact Hc|now apply (all_tx "penwidth=2.0]")].
    intros x [].
  - repeat (apply in_or_app; right). right. repeat (apply in_or_app; right). right. repeat (apply in_or_app; right). right. now left.
Qed.
