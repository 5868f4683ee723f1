(** What the lines of EXPLAIN ANALYZE texts say, independently of the regular
    expressions that read them: numerals, table names, printed lines. *)
From Coq Require Import String List NArith ZArith QArith Bool Lia Arith.
From Verif Require Import Base Dec ExplainTree ExplainSpec.
Import ListNotations.
Local Open Scope nat_scope.

(** ** Numerals *)
Definition digits (w : gostring) : Prop := Forall (fun c => is_digit c = true) w.
(** The number written by digits: every digit counts by its place. *)
Fixpoint place_value (w : gostring) : N :=
  match w with
  | [] => 0
  | c :: r => (c - 48) * 10 ^ N.of_nat (length r) + place_value r
  end%N.
Definition decimal_value (a b : gostring) : Q :=
  (inject_Z (Z.of_N (place_value a)) +
   inject_Z (Z.of_N (place_value b)) / inject_Z (Z.of_N (10 ^ N.of_nat (length b))))%Q.

(** [w] is a decimal: digits with at most one dot; [q] is its value. *)
Definition decimal (w : gostring) (q : Q) : Prop :=
  exists a b, digits a /\ digits b /\ a ++ b <> [] /\
    ((w = a /\ b = []) \/ w = a ++ 46%N :: b) /\ (q == decimal_value a b)%Q.
(** As databases print it: a digit before the dot, and one after it. *)
Definition numeral (w : gostring) (q : Q) : Prop :=
  exists a b, digits a /\ digits b /\ a <> [] /\
    ((w = a /\ b = []) \/ (w = a ++ 46%N :: b /\ b <> [])) /\ (q == decimal_value a b)%Q.
(** A double can hold it. *)
Definition fits (q : Q) : Prop := (q < inject_Z (Z.of_N float_limit))%Q.

(** A natural number that an int64 can hold. *)
Definition count (w : gostring) (z : Z) : Prop :=
  w <> [] /\ digits w /\ z = Z.of_N (place_value w) /\ (z < 2 ^ 63)%Z.

Definition same_number (x y : null_float) : Prop :=
  match x, y with
  | Some a, Some b => (a == b)%Q
  | None, None => True
  | _, _ => False
  end.

(** ** Substrings *)
Definition occurs (p s : gostring) : Prop := exists a b, s = a ++ p ++ b.

(** ** Table names *)
(** [t] is the longest run of word characters at the beginning of [t ++ b]. *)
Definition word_run (t b : gostring) : Prop :=
  t <> [] /\ Forall (fun c => is_word c = true) t /\
  match b with [] => True | c :: _ => is_word c = false end.

(** The leftmost place from which the text says [t]. *)
Definition leftmost (says : gostring -> gostring -> Prop) (line t : gostring) : Prop :=
  exists a r, line = a ++ r /\ says r t /\
    forall a1 a2, a = a1 ++ a2 -> a2 <> [] -> forall t', ~ says (a2 ++ r) t'.
Definition nowhere (says : gostring -> gostring -> Prop) (line : gostring) : Prop :=
  forall a r t, line = a ++ r -> ~ says r t.

(** " on t" *)
Definition says_on (r t : gostring) : Prop :=
  exists b, r = lit " on " ++ t ++ b /\ word_run t b.
(** " Filter: (t.", " Sort: t.", " Key: t." *)
Definition says_dotted (intro : gostring) (r t : gostring) : Prop :=
  exists b, r = intro ++ t ++ 46%N :: b /\ t <> [] /\ Forall (fun c => is_word c = true) t.
(** " Aggregate: f(t." *)
Definition says_aggregate (r t : gostring) : Prop :=
  exists f b, r = lit " Aggregate: " ++ f ++ lit "(" ++ t ++ 46%N :: b /\
    f <> [] /\ Forall (fun c => is_word c = true) f /\
    t <> [] /\ Forall (fun c => is_word c = true) t.

(** The table of a MySQL line: the first of the four phrases that stands in it. *)
Definition mysql_table (line t : gostring) : Prop :=
  leftmost says_on line t \/
  (nowhere says_on line /\
   (leftmost (says_dotted (lit " Filter: (")) line t \/
    (nowhere (says_dotted (lit " Filter: (")) line /\
     (leftmost (says_dotted (lit " Sort: ")) line t \/
      (nowhere (says_dotted (lit " Sort: ")) line /\
       (leftmost says_aggregate line t \/
        (nowhere says_aggregate line /\ t = []))))))).

(** The table of a PostgreSQL line: " on t"; else a quoted or dotted name after
    " on "; else the table of a key. *)
Definition is_name_char (c : rune) : bool := (is_word c || N.eqb c 46)%bool.
Definition says_qualified (r t : gostring) : Prop :=
  exists q b, r = lit " on " ++ q ++ t ++ b /\ (q = [] \/ q = lit """") /\
    t <> [] /\ Forall (fun c => is_name_char c = true) t /\
    match b with [] => True | c :: _ => is_name_char c = false end.
Definition pg_line_table (line t : gostring) : Prop :=
  leftmost says_on line t \/
  (nowhere says_on line /\
   (leftmost says_qualified line t \/
    (nowhere says_qualified line /\ leftmost (says_dotted (lit " Key: ")) line t))).
Definition pg_no_table (line : gostring) : Prop :=
  nowhere says_on line /\ nowhere says_qualified line /\
  nowhere (says_dotted (lit " Key: ")) line.
(** The table of a node: that of the first of its lines that has one. *)
Definition pg_table (lines : list gostring) (t : gostring) : Prop :=
  (exists before line after, lines = before ++ line :: after /\
     Forall pg_no_table before /\ pg_line_table line t) \/
  (Forall pg_no_table lines /\ t = []).

(** ** Printed lines *)
(** "(actual time=first..avg rows=n loops=m)" *)
Record actual := {
  a_first : gostring; a_avg : gostring; a_rows : gostring; a_loops : gostring }.
Definition actual_text (a : actual) : gostring :=
  lit "(actual time=" ++ a_first a ++ lit ".." ++ a_avg a ++ lit " rows=" ++ a_rows a ++
  lit " loops=" ++ a_loops a ++ lit ")".
Definition actual_says (num : gostring -> Q -> Prop) (a : actual) (first avg : Q) (rows loops : Z) : Prop :=
  num (a_first a) first /\ fits first /\ num (a_avg a) avg /\ fits avg /\
  count (a_rows a) rows /\ count (a_loops a) loops.
Definition actual_means := actual_says numeral.
(** Digits and dots where numbers are expected. *)
Definition number_like (w : gostring) : Prop :=
  w <> [] /\ Forall (fun c => is_digit c = true \/ c = 46%N) w.
Definition count_like (w : gostring) : Prop := w <> [] /\ digits w.
Definition actual_shape (a : actual) : Prop :=
  number_like (a_first a) /\ number_like (a_avg a) /\ count_like (a_rows a) /\ count_like (a_loops a).

(** "(cost=cost)", "(cost=init..cost)", each with " rows=n" or without *)
Record mysql_estimate := {
  e_init : option gostring; e_cost : gostring; e_rows : option gostring }.
Definition mysql_estimate_text (e : mysql_estimate) : gostring :=
  lit "(cost=" ++ match e_init e with Some i => i ++ lit ".." | None => [] end ++ e_cost e ++
  match e_rows e with Some n => lit " rows=" ++ n | None => [] end ++ lit ")".
Definition mysql_estimate_says (num : gostring -> Q -> Prop) (e : mysql_estimate)
  (init : option Q) (cost : Q) (rows : option Z) : Prop :=
  match e_init e, init with
  | Some w, Some q => num w q /\ fits q
  | None, None => True
  | _, _ => False
  end /\
  num (e_cost e) cost /\ fits cost /\
  match e_rows e, rows with
  | Some w, Some z => count w z
  | None, None => True
  | _, _ => False
  end.
Definition mysql_estimate_means := mysql_estimate_says numeral.
Definition mysql_estimate_shape (e : mysql_estimate) : Prop :=
  match e_init e with Some w => number_like w | None => True end /\ number_like (e_cost e) /\
  match e_rows e with Some w => count_like w | None => True end.

(** "(cost=init..cost rows=n width=w)" *)
Record pg_estimate := {
  g_init : gostring; g_cost : gostring; g_rows : gostring; g_width : gostring }.
Definition pg_estimate_text (e : pg_estimate) : gostring :=
  lit "(cost=" ++ g_init e ++ lit ".." ++ g_cost e ++ lit " rows=" ++ g_rows e ++
  lit " width=" ++ g_width e ++ lit ")".
Definition pg_estimate_says (num : gostring -> Q -> Prop) (e : pg_estimate)
  (init cost : Q) (rows width : Z) : Prop :=
  num (g_init e) init /\ fits init /\ num (g_cost e) cost /\ fits cost /\
  count (g_rows e) rows /\ count (g_width e) width.
Definition pg_estimate_means := pg_estimate_says numeral.
Definition pg_estimate_shape (e : pg_estimate) : Prop :=
  number_like (g_init e) /\ number_like (g_cost e) /\ count_like (g_rows e) /\ count_like (g_width e).

Definition spaces (n : nat) : gostring := repeat 32%N n.

(** Two trees of the same shape whose nodes correspond; [d] is the depth. *)
Inductive mirrors {A B} (R : nat -> A -> B -> Prop) : nat -> tree A -> tree B -> Prop :=
| mirrors_node : forall d a b cs ds, R d a b -> Forall2 (mirrors R (S d)) cs ds ->
    mirrors R d (Node a cs) (Node b ds).

(** ** A plan as MySQL prints it *)
Record mysql_node := {
  mn_desc : gostring; mn_estimate : option mysql_estimate; mn_actual : option actual }.
(** Four spaces for each level, the arrow, the description, the estimate, the
    measurement. *)
Definition mysql_node_text (d : nat) (n : mysql_node) : gostring :=
  spaces (4 * d) ++ lit "-> " ++ mn_desc n ++
  lit " " ++ match mn_estimate n with Some e => lit " " ++ mysql_estimate_text e | None => [] end ++
  match mn_actual n with Some a => lit " " ++ actual_text a | None => lit " (never executed)" end.
Definition mysql_text (f : list (tree mysql_node)) : gostring :=
  flat_map (fun p => mysql_node_text (fst p) (snd p) ++ [nl]) (forest_depths 0 f).

(** The description is one line and does not itself contain a phrase that
    introduces numbers; the numbers are numbers. *)
Definition mysql_printable (n : mysql_node) : Prop :=
  ~ In nl (mn_desc n) /\ ~ occurs (lit "(cost=") (mn_desc n) /\
  ~ occurs (lit "(actual time=") (mn_desc n) /\
  match mn_estimate n with
  | Some e => exists init cost rows, mysql_estimate_means e init cost rows
  | None => True
  end /\
  match mn_actual n with
  | Some a => exists first avg rows loops, actual_means a first avg rows loops
  | None => True
  end.

(** ** A plan as PostgreSQL prints it *)
Record pg_node := {
  pn_label : option gostring;       (* "SubPlan 1", "CTE x" above the node *)
  pn_desc : gostring;
  pn_estimate : pg_estimate; pn_actual : option actual;
  pn_infos : list gostring }.       (* "Filter: ...", below the node *)
Definition pg_numbers (n : pg_node) : gostring :=
  lit "  " ++ pg_estimate_text (pn_estimate n) ++
  match pn_actual n with Some a => lit " " ++ actual_text a | None => lit " (never executed)" end.
(** The topmost node has no arrow; the others are printed at [ind] (in units of two
    spaces), a label moves the node below it by one. *)
Definition pg_node_lines (ind : nat) (n : pg_node) : list gostring :=
  match ind with
  | 0 => [pn_desc n ++ pg_numbers n] ++ map (fun x => spaces 2 ++ x) (pn_infos n)
  | _ =>
    match pn_label n with
    | None => [spaces (2 * ind) ++ lit "->  " ++ pn_desc n ++ pg_numbers n] ++
              map (fun x => spaces (2 * (ind + 3)) ++ x) (pn_infos n)
    | Some l => [spaces (2 * ind) ++ l; spaces (2 * (ind + 1)) ++ lit "->  " ++ pn_desc n ++ pg_numbers n] ++
                map (fun x => spaces (2 * (ind + 4)) ++ x) (pn_infos n)
    end
  end.
(** Where the children of a node are printed. *)
Definition pg_below (ind : nat) (n : pg_node) : nat :=
  match ind with
  | 0 => 1
  | _ => match pn_label n with None => ind + 3 | Some _ => ind + 4 end
  end.
(** The groups of lines of a tree, in the order they are printed. *)
Fixpoint pg_tree_groups (ind : nat) (t : tree pg_node) : list (list gostring) :=
  match t with
  | Node n cs => pg_node_lines ind n :: flat_map (pg_tree_groups (pg_below ind n)) cs
  end.
Definition pg_text_lines (t : tree pg_node) : list gostring := concat (pg_tree_groups 0 t).

(** ** What an arbitrary line says *)
(** The numbers reported stand in the line in a phrase of the expected form; none
    are reported only if there is no such phrase. *)
Definition actual_stands (line : gostring) (f v : null_float) (r l : null_int) : Prop :=
  match f, v, r, l with
  | None, None, None, None => forall a, actual_shape a -> ~ occurs (actual_text a) line
  | Some f, Some v, Some r, Some l => exists a, occurs (actual_text a) line /\ actual_says decimal a f v r l
  | _, _, _, _ => False
  end.
Definition actual_unreadable (line : gostring) : Prop :=
  exists a, actual_shape a /\ occurs (actual_text a) line /\ ~ exists f v r l, actual_says decimal a f v r l.
Definition mysql_estimate_stands (line : gostring) (i c : null_float) (r : null_int) : Prop :=
  match i, c, r with
  | None, None, None => forall e, mysql_estimate_shape e -> ~ occurs (mysql_estimate_text e) line
  | i, Some c, r => exists e, occurs (mysql_estimate_text e) line /\ mysql_estimate_says decimal e i c r
  | _, _, _ => False
  end.
Definition mysql_estimate_unreadable (line : gostring) : Prop :=
  exists e, mysql_estimate_shape e /\ occurs (mysql_estimate_text e) line /\
    ~ exists i c r, mysql_estimate_says decimal e i c r.
Definition pg_estimate_stands (line : gostring) (i c : null_float) (r w : null_int) : Prop :=
  match i, c, r, w with
  | None, None, None, None => forall e, pg_estimate_shape e -> ~ occurs (pg_estimate_text e) line
  | Some i, Some c, Some r, Some w => exists e, occurs (pg_estimate_text e) line /\ pg_estimate_says decimal e i c r w
  | _, _, _, _ => False
  end.
Definition pg_estimate_unreadable (line : gostring) : Prop :=
  exists e, pg_estimate_shape e /\ occurs (pg_estimate_text e) line /\
    ~ exists i c r w, pg_estimate_says decimal e i c r w.

(** The line of a PostgreSQL node that has its numbers: the first with
    "(cost=...)"; the empty text if there is none. *)
Definition has_cost (l : gostring) : Prop :=
  exists a w b, l = a ++ lit "(cost=" ++ w ++ lit ")" ++ b /\ w <> [] /\ ~ In nl w.
Definition numbers_line (lines : list gostring) (l : gostring) : Prop :=
  (exists before after, lines = before ++ l :: after /\ has_cost l /\ Forall (fun x => ~ has_cost x) before) \/
  (Forall (fun x => ~ has_cost x) lines /\ l = []).
